(** Weights and impacts of configured matchers in binary64 (C102). *)
From Coq Require Import Reals ZArith List Bool Lia Lra.
From Flocq Require Import Core IEEE754.BinarySingleNaN IEEE754.Binary IEEE754.Bits.
From Verif.Base Require Import Outcome Num F64Facts.
From Verif.Model Require Import MathUtils Geometry Grid PlainMap LazyMap Cells Sensor ScanAdder Histogram AreaEstimator Pyramid World Config WholeSlam Spe Matchers WholeMatcher Impact.
From Verif.Spec Require Import CellSpec WholeSpec.
From Verif.Proofs Require Import GridNumProofs CellProofs TbmFloatProofs AreaRange CompareProofs SpeProofs WholeProofs WholeObs WholeMaps WholeRun ScoreProofs.
Import ListNotations.
Local Open Scope R_scope.

(** *** weights *)
Lemma f01_nw x : f01 x -> nw x.
Proof. intros [F P]. right. right. split; [exact F|]. unfold in01 in P. lra. Qed.
Lemma ofZ_nneg z : (0 <= z)%Z -> nneg (dofZ z : F64).
Proof.
  intros P. destruct (Z.eq_dec z 0) as [->|N].
  - destruct (F_ofZ_correct 0 ltac:(cbn; lia)) as [Z0 ZF]. right. split; [exact ZF|rewrite Z0; lra].
  - destruct (ofZ_pos z ltac:(lia)) as [E|[F G]]; [left; exact E|right; split; [exact F|lra]].
Qed.
Lemma even_nw pts i w : even_weight pts i = Ok w -> nw w.
Proof.
  unfold even_weight. intros E. apply Ok_inj in E. rewrite <- E. destruct pts as [|x pts]; [right; left; reflexivity|].
  apply f01_nw, inv_f01. cbn [length]. lia.
Qed.
Lemma abs_nw (x : F64) : nw (dabs x).
Proof.
  destruct (fin_or x) as [N|[[s ->]|F]]; [left; destruct x; try discriminate N; reflexivity|right; left; destruct s; reflexivity|].
  right. right. destruct (F_dabs_correct x) as [E G]. split; [rewrite G; exact F|]. rewrite E. apply Rabs_pos.
Qed.
Lemma sqrt_nw (x : F64) : nw (dsqrt x).
Proof.
  destruct (fin_or x) as [N|[[s ->]|F]]; [left; destruct x; try discriminate N; reflexivity|destruct s; [left|right; left]; reflexivity|].
  destruct (Bsqrt_correct 53 1024 eq_refl eq_refl unop_nan_pl64 mode_NE x) as [H1 [H2 _]].
  change (Binary.Bsqrt 53 1024 eq_refl eq_refl unop_nan_pl64 mode_NE x) with (dsqrt x) in *.
  destruct (fin_or (dsqrt x)) as [N|[[s E]|G]]; [left; exact N| |].
  - rewrite E in H2. destruct x as [s0|s0|s0 pl h|s0 m e h]; try discriminate F; [discriminate H2|]. destruct s0; [left; reflexivity|discriminate H2].
  - right. right. split; [exact G|]. change (F2R64 (dsqrt x)) with (B2R 53 1024 (dsqrt x)). rewrite H1. apply (rnd_ge 0); [apply fmt_0|apply sqrt_pos].
Qed.
Lemma viny_nw dcos dsin datan2 pts i w : viny_weight dcos dsin datan2 pts i = Ok w -> nw w.
Proof.
  unfold viny_weight. destruct (nth_error pts (Z.to_nat i)) as [s|]; [|discriminate]. cbv zeta. intros E. apply Ok_inj in E. rewrite <- E.
  apply mul_nw; [|apply sqrt_nw]. destruct (dlt _ _); [right; apply ofZ_nneg; lia|]. destruct (dlt _ _); [right; apply ofZ_nneg; lia|].
  apply add_nw; apply abs_nw.
Qed.
Lemma ahr_f01 dcos dsin dacos mpi pts h i w : hist_reset dcos dsin dacos mpi 20 pts = Ok h -> ahr_weight mpi h pts i = Ok w -> f01 w.
Proof.
  intros H E. apply (omqe_f01 dcos dsin dacos mpi AhrOmqe pts (Some h) (Z.of_nat i)).
  - cbn [omqe_reset]. rewrite H. reflexivity.
  - cbn [omqe_quality]. rewrite Nat2Z.id. exact E.
Qed.

(** *** impacts *)
Lemma expected_good (p : point F64) : fgood_obs (expected_obs p).
Proof. right. cbn [expected_obs a_occ prob_occ est_quality a_quality]. auto using f01_1. Qed.
Lemma good_prob c : good c -> (forall g, c <> CGmapping g) -> ~ is_consistent c -> f01 (acell_prob c).
Proof.
  intros [H _] G NC. unfold reports_well in H. destruct (c_unknown (acell_base c)).
  - destruct H as [F E]. split; [exact F|]. rewrite E. unfold unknown_value, in01. destruct c; try lra. exfalso. eapply G. eauto.
  - destruct H as [H|[H _]]; [exact H|contradiction].
Qed.
Lemma good_disc dexp c a : good c -> (forall g, c <> CGmapping g) -> fgood_obs a -> f01 (prob_occ (a_occ a)) -> f01 (acell_discrepancy dexp c a).
Proof.
  intros G NG Ha Hp. assert (P : (~ is_consistent c) -> f01 (acell_prob c)) by (intros; apply good_prob; assumption).
  destruct G as [_ I]. destruct c as [c|c|c|c|c|c]; cbn [acell_discrepancy] in *.
  - apply plain_disc_f01; [|exact Hp]. apply P. intros [t Q]. discriminate.
  - apply plain_disc_f01; [|exact Hp]. apply P. intros [t Q]. discriminate.
  - apply tcell_disc_f01; assumption.
  - apply tcell_disc_f01; assumption.
  - apply cred_disc_f01; assumption.
  - exfalso. eapply NG. reflexivity.
Qed.
Lemma good_impact dexp kind p c : good c -> (forall g, c <> CGmapping g) -> (kind = OccupancyOie -> ~ is_consistent c) ->
  exists v, oie_impact dexp kind (expected_obs p) c = Ok v /\ f01 v.
Proof.
  intros G NG NC. eexists. split; [reflexivity|]. destruct kind.
  - apply f01_sub1. apply good_disc; [exact G|exact NG|apply expected_good|]. cbn [expected_obs a_occ prob_occ]. apply f01_1.
  - apply good_prob; auto.
Qed.
Lemma bounded_f01 (v : F64) : f01 v -> is_prob_bounded v = true.
Proof.
  intros [F P]. unfold in01 in P. unfold is_prob_bounded.
  destruct (F_ofZ_correct 0 ltac:(cbn; lia)) as [Z0 ZF]. destruct (F_ofZ_correct 1 ltac:(cbn; lia)) as [O0 OF].
  apply andb_true_iff. split; apply F_less_or_equal_of_le; auto; apply F_le_fin; auto; rewrite ?Z0, ?O0; lra.
Qed.
Lemma disc_place dexp (c : acell F64) o1 o2 : (forall g, c <> CGmapping g) -> acell_discrepancy dexp c (expected_obs o1) = acell_discrepancy dexp c (expected_obs o2).
Proof.
  intros NG. assert (T : forall o : point F64, aoo2tbm (expected_obs o) = aoo2tbm (mkAoo true (mkOcc (dofZ 1) (dofZ 1)) (dofZ 0, dofZ 0) (dofZ 1))).
  { intros o. unfold aoo2tbm. cbn [expected_obs a_occ a_quality]. reflexivity. }
  destruct c as [c|c|c|c|c|c]; cbn [acell_discrepancy]; unfold gcell_discrepancy, tcell_discrepancy, cred_discrepancy; rewrite ?T; cbn [expected_obs a_occ];
    [reflexivity|reflexivity|reflexivity|reflexivity|reflexivity|exfalso; eapply NG; reflexivity].
Qed.

(** *** bounded weights: no NaN *)
Section Bounded.
  Context {C : Type}.
  Variables (impact : C -> outcome F64) (m : omap F64 C).
  Hypothesis Himp : forall c v, cell_impact impact m c = Ok v -> f01 v.
  Lemma observation_f01 kind bound p (a : rect F64) v : (Z.of_nat bound <= 2 ^ 53)%Z -> kind <> OverlapOope ->
    observation_prob impact kind bound m p a = Ok v -> f01 v.
  Proof using Himp.
    intros Hb K. unfold observation_prob. destruct kind; [| | |contradiction].
    - unfold obstacle_pe. intros E. apply bind_Ok_inv in E as (c & _ & E). eapply Himp; eassumption.
    - unfold max_pe. intros E. apply bind_Ok_inv in E as (l & _ & E). eapply (max_f01 impact m Himp); [apply f01_0|eassumption].
    - unfold mean_pe. intros E. apply bind_Ok_inv in E as (l & El & E). apply bind_Ok_inv in E as ([t n] & En & E). apply Ok_inj in E. rewrite <- E. clear E.
      unfold area_cells in El. apply bind_Ok_inv in El as (r & _ & El). apply vec_length in El.
      destruct (F_ofZ_correct 0 ltac:(cbn; lia)) as [Z0 ZF].
      apply (mean_f01 impact m Himp) in En; [|lia|lia|exact ZF|rewrite Z0; lra]. destruct En as (Hn & Ft & Bt). destruct (n =? 0)%Z eqn:N; [apply f01_half|].
      apply Z.eqb_neq in N. destruct (F_ofZ_correct n) as [N0 NF]; [rewrite Z.abs_eq; lia|].
      apply div_between; [exact NF| |exact Ft|rewrite N0; exact Bt]. rewrite N0. apply IZR_lt. lia.
  Qed.
End Bounded.
Definition binv (n : Z) (t w : F64) : Prop := F_fin t = true /\ F_fin w = true /\ 0 <= F2R64 t <= F2R64 w /\ F2R64 w <= IZR n.
Lemma binv_step n t w v x f : (0 <= n)%Z -> (n + 1 <= 2 ^ 53)%Z -> binv n t w -> f01 v -> f01 x -> F_fin f = true -> F2R64 f = 1 ->
  binv (n + 1) (dadd t (dmul (dmul v x) f)) (dadd w x) /\ F2R64 w <= F2R64 (dadd w x) /\ F2R64 x <= F2R64 (dadd w x).
Proof.
  intros Hn Hn1 (Ft & Fw & Bt & Bw) Hv Hx Ff Hf.
  assert (Hfx : f01 f) by (split; [exact Ff|rewrite Hf; unfold in01; lra]).
  assert (L1 : F2R64 (dmul v x) <= F2R64 x /\ f01 (dmul v x)).
  { destruct (f01_mul v x Hv Hx) as [A B]. split; [|exact A]. rewrite B. destruct Hv as [_ Hv], Hx as [_ Hx]. unfold in01 in *.
    apply rnd_le_fmt; [apply F_fmt|]. rewrite <- (Rmult_1_l (F2R64 x)) at 2. apply Rmult_le_compat_r; lra. }
  destruct L1 as [L1 F1]. destruct (f01_mul _ f F1 Hfx) as [F2 E2]. rewrite Hf, Rmult_1_r, rnd_id in E2 by apply F_fmt.
  set (y := dmul (dmul v x) f) in *. destruct F2 as [Fy By]. destruct Hx as [Fx Bx]. unfold in01 in *.
  assert (Fm : fmt64 (IZR (n + 1))) by (apply fmt_IZR; rewrite Z.abs_eq; lia).
  assert (N1 : forall z, 0 <= z <= IZR (n + 1) -> no_ovf z).
  { intros z Hz. apply (no_ovf_le (IZR (n + 1)) _ Fm).
    - apply Rle_lt_trans with (IZR (2 ^ 53)); [apply IZR_le; lia|]. change (IZR (2 ^ 53)) with (bpow radix2 53). unfold fmax_bound. apply bpow_lt. lia.
    - rewrite Rabs_pos_eq; lra. }
  rewrite plus_IZR in N1.
  destruct (F_add_correct t y Ft Fy) as [A A']; [apply N1; lra|]. destruct (F_add_correct w x Fw Fx) as [B B']; [apply N1; lra|].
  split; [|split; rewrite B; apply rnd_ge; try apply F_fmt; lra].
  split; [exact A'|]. split; [exact B'|]. rewrite A, B. split; [split; [apply (rnd_ge 0); [apply fmt_0|lra]|apply rnd_le; lra]|].
  apply rnd_le_fmt; [exact Fm|rewrite plus_IZR; lra].
Qed.
Section Sums.
  Variables (dcos dsin : F64 -> F64) (datan2 : F64 -> F64 -> F64) (prob : point F64 -> rect F64 -> outcome F64) (area : rect F64).
  Hypothesis Hprob : forall o a v, prob o a = Ok v -> f01 v.
  Lemma estimate_binv (w : Z -> outcome F64) p tp : (forall i x, w i = Ok x -> f01 x) -> forall pts i n t k t' k', (0 <= n)%Z -> (n + Z.of_nat (length pts) <= 2 ^ 53)%Z ->
    (forall s, In s pts -> unit_factor s) -> binv n t k ->
    estimate_loop w (point_prob dcos dsin datan2 prob p tp false area) i pts t k = Ok (t', k') ->
    binv (n + Z.of_nat (length pts)) t' k' /\ F2R64 k <= F2R64 k' /\ (forall x, (forall j, w j = Ok x) -> pts <> [] -> F2R64 x <= F2R64 k').
  Proof using Hprob.
    intros HW. induction pts as [|s pts IH]; intros i n t k t' k' Hn Hl HF H E; cbn [estimate_loop] in E; cbn [length] in *.
    - apply Ok_inj in E. injection E as <- <-. replace (n + Z.of_nat 0)%Z with n by lia. split; [exact H|]. split; [lra|]. intros x _ N. now contradiction N.
    - apply bind_Ok_inv in E as (v & Ev & E). apply bind_Ok_inv in E as (x & Ex & E).
      destruct (HF s (or_introl eq_refl)) as [F1 F2]. assert (Hx := HW _ _ Ex).
      assert (Hv : f01 v). { unfold point_prob in Ev. apply bind_Ok_inv in Ev as (o & _ & Ev). apply bind_Ok_inv in Ev as (r & _ & Ev). eapply Hprob; eassumption. }
      destruct (binv_step n t k v x (sp_factor s) Hn ltac:(lia) H Hv Hx F1 F2) as (S1 & S2 & S3).
      apply (IH _ (n + 1)%Z) in E; [|lia|lia|intros; apply HF; now right|exact S1]. destruct E as (E1 & E2 & _).
      replace (n + Z.of_nat (S (length pts)))%Z with (n + 1 + Z.of_nat (length pts))%Z by lia. split; [exact E1|]. split; [lra|].
      intros x' Hx' _. rewrite Hx' in Ex. apply Ok_inj in Ex. subst x'. lra.
  Qed.
  Lemma scan_f01 (w : Z -> outcome F64) p tp pts r : (forall i x, w i = Ok x -> f01 x) -> (Z.of_nat (length pts) <= 2 ^ 53)%Z ->
    (forall s, In s pts -> unit_factor s) ->
    estimate_scan dcos dsin datan2 prob w p tp false area pts = Ok r ->
    (forall v, r = Some v -> f01 v) /\ (forall x, (forall j, w j = Ok x) -> 0 < F2R64 x -> pts <> [] -> r <> None).
  Proof using Hprob.
    intros HW Hl HF. unfold estimate_scan. intros E. apply bind_Ok_inv in E as ([t k] & Ew & E).
    destruct (F_ofZ_correct 0 ltac:(cbn; lia)) as [Z0 ZF].
    apply (estimate_binv _ _ _ HW pts 0 0%Z) in Ew; [|lia|exact Hl|exact HF|repeat split; auto; rewrite ?Z0; cbn; lra].
    destruct Ew as ((Ft & Fw & Bt & _) & _ & Hx). apply Ok_inj in E. rewrite <- E. destruct (deq k (dofZ 0)) eqn:Z.
    - split; [discriminate|]. intros x Ex Px Np. exfalso. apply F_eq_fin in Z; auto. rewrite Z0 in Z. assert (X := Hx x Ex Np). lra.
    - split; [|discriminate]. intros v Ev. injection Ev as <-. apply div_between; auto.
      assert (F2R64 k <> 0) by (intros Q; assert (deq k (dofZ 0) = true) by (apply F_eq_fin; auto; congruence); congruence). lra.
  Qed.
End Sums.

(** *** any cell of a map under construction *)
Lemma opp_div_nonpos (d v : F64) : nneg d -> F_fin v = true -> 0 < F2R64 v -> dle (ddiv (dopp d) v) (dofZ 0) = true.
Proof.
  intros H Fv Pv. destruct (F_ofZ_correct 0 ltac:(cbn; lia)) as [Z0 ZF].
  destruct H as [->|[F P]].
  - destruct v as [s|s|s pl h|s m e h]; try discriminate Fv; [cbn in Pv; lra|]. destruct s; [|reflexivity].
    exfalso. assert (Q := F_sign_true (B754_finite 53 1024 true m e h) eq_refl). lra.
  - destruct (F_dopp_correct d) as [E G]. assert (Fo : F_fin (dopp d) = true) by (rewrite G; exact F).
    assert (NE : F2R64 v <> 0) by lra. assert (IP : 0 < / F2R64 v) by (apply Rinv_0_lt_compat; exact Pv).
    assert (Q : F2R64 (dopp d) / F2R64 v <= 0).
    { rewrite E. unfold Rdiv. assert (0 <= F2R64 d * / F2R64 v) by (apply Rmult_le_pos; lra). lra. }
    generalize (Bdiv_correct 53 1024 eq_refl eq_refl binop_nan_pl64 mode_NE (dopp d) v NE). intros H. ovf_case H.
    + destruct H as [H1 [H2 _]].
      change (Binary.Bdiv 53 1024 eq_refl eq_refl binop_nan_pl64 mode_NE (dopp d) v) with (ddiv (dopp d) v) in *.
      apply F_le_fin; [unfold F_fin in *; rewrite Fo in H2; exact H2|exact ZF|]. rewrite Z0. change (F2R64 (ddiv (dopp d) v)) with (B2R 53 1024 (ddiv (dopp d) v)). rewrite H1. apply (rnd_le_fmt 0); [apply fmt_0|exact Q].
    + apply B2FF_ovf in H. fold (F2R64 (dopp d)) (F2R64 v) in E0.
      assert (X : xorb (Bsign 53 1024 (dopp d)) (Bsign 53 1024 v) = true).
      { destruct (Bsign 53 1024 v) eqn:Sv; [exfalso; assert (A := F_sign_true _ Sv); fold (F2R64 v) in A; lra|].
        destruct (Bsign 53 1024 (dopp d)) eqn:Sd; [reflexivity|]. exfalso. apply rnd0_no. assert (A := F_sign_false _ Sd). fold (F2R64 (dopp d)) in A.
        replace (F2R64 (dopp d) / F2R64 v) with 0 in E0; [exact E0|]. assert (F2R64 (dopp d) = 0) as -> by lra. unfold Rdiv. ring. }
      rewrite X in H. change (Binary.Bdiv 53 1024 eq_refl eq_refl binop_nan_pl64 mode_NE (dopp d) v) with (ddiv (dopp d) v) in H. rewrite H. reflexivity.
Qed.
Lemma sq_nw (x : F64) : nw (dmul x x).
Proof. destruct (disnan x) eqn:N; [left; now apply nan_mul_l|right; now apply sq_nneg]. Qed.
Lemma dist_nw (a b : point F64) : nw (dist_sq a b).
Proof. unfold dist_sq. apply add_nw; apply sq_nw. Qed.
Lemma nan_lt_r (x y : F64) : disnan y = true -> dlt x y = false.
Proof. destruct y; try discriminate. intros _. destruct x; reflexivity. Qed.
Lemma nan_abs (x : F64) : disnan x = true -> disnan (dabs x) = true.
Proof. destruct x; try discriminate. reflexivity. Qed.
Lemma nan_opp (x : F64) : disnan x = true -> disnan (dopp x) = true.
Proof. destruct x; try discriminate. reflexivity. Qed.
Lemma bounded_nan (v : F64) : disnan v = true -> is_prob_bounded v = false.
Proof.
  intros N. unfold is_prob_bounded. apply andb_false_iff. left. unfold less_or_equal, are_equal, are_equal_eps, less. apply orb_false_iff. split.
  - apply F_nan_le_l, nan_abs, nan_sub_r, N.
  - apply nan_lt_r, nan_add_l, N.
Qed.
Lemma bounded_m1 (v : F64) : F_fin v = true -> F2R64 v = -1 -> is_prob_bounded v = false.
Proof.
  intros F E. destruct (F_ofZ_correct (-1) ltac:(cbn; lia)) as [Z0 ZF].
  assert (X : v = dofZ (-1)).
  { apply (B2R_inj 53 1024).
    - destruct v as [s|s|s pl h|s m e h]; try discriminate F; [unfold F2R64 in E; cbn in E; lra|reflexivity].
    - vm_compute. reflexivity.
    - fold (F2R64 v). rewrite E. symmetry. exact Z0. }
  rewrite X. vm_compute. reflexivity.
Qed.
Definition exp_like (dexp : F64 -> F64) : Prop :=
  forall x, (disnan x = true -> disnan (dexp x) = true) /\ (dle x (dofZ 0) = true -> probability (dexp x)).
Lemma gm_arg_nonpos (d : F64) : nneg d -> dle (ddiv (dopp d) gm_dist_variance) (dofZ 0) = true.
Proof.
  intros N. apply opp_div_nonpos; [exact N|vm_compute; reflexivity|].
  unfold gm_dist_variance. destruct (F_dlit_correct 5 100 ltac:(lia) ltac:(lia)) as [E _]; [apply no_ovf_1; lra|]. rewrite E.
  apply Rlt_le_trans with (bpow radix2 (-10)); [apply bpow_gt_0|]. apply rnd_ge; [apply generic_format_bpow; vm_compute; discriminate|].
  assert (bpow radix2 (-10) = / 1024) as -> by reflexivity. lra.
Qed.
Lemma gm_disc_nan01 dexp (c : gmcell F64) a : exp_like dexp -> nan01 (gm_discrepancy dexp c a).
Proof.
  intros X. unfold gm_discrepancy. apply nan01_sub1. destruct (dist_nw (g_obst c) (a_obst a)) as [N|N].
  - left. apply X. apply nan_div_l, nan_opp, N.
  - right. destruct (X (ddiv (dopp (dist_sq (g_obst c) (a_obst a))) gm_dist_variance)) as [_ Y]. apply Y, gm_arg_nonpos, N.
Qed.
Lemma any_impact dexp kind p c v : exp_like dexp -> good c -> oie_impact dexp kind (expected_obs p) c = Ok v -> is_prob_bounded v = true -> f01 v.
Proof.
  intros X G E B. unfold oie_impact in E. apply Ok_inj in E. rewrite <- E in *. clear E v. destruct kind.
  - assert (N : nan01 (dsub (dofZ 1) (acell_discrepancy dexp c (expected_obs p)))).
    { apply nan01_sub1. destruct c as [c|c|c|c|c|c]; try (right; apply good_disc; [exact G|discriminate|apply expected_good|cbn [expected_obs a_occ prob_occ]; apply f01_1]).
      cbn [acell_discrepancy]. apply gm_disc_nan01, X. }
    destruct N as [N|N]; [rewrite (bounded_nan _ N) in B; discriminate|exact N].
  - destruct G as [R _]. unfold reports_well in R. destruct (c_unknown (acell_base c)).
    + destruct R as [F E]. unfold unknown_value in E. destruct c; try (split; [exact F|rewrite E; unfold in01; lra]).
      rewrite (bounded_m1 _ F E) in B. discriminate.
    + destruct R as [R|[_ N]]; [exact R|]. rewrite (bounded_nan _ N) in B. discriminate.
Qed.
