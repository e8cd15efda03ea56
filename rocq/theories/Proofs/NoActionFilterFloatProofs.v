(** GMapping with the scan matcher that does nothing, in binary64. *)
From Coq Require Import Reals ZArith List Lia Lra Bool.
From Flocq Require Import Core Plus_error IEEE754.BinarySingleNaN IEEE754.Binary IEEE754.Bits.
From Verif.Base Require Import Outcome Num F64Facts OrdLaws.
From Verif.Model Require Import MathUtils Geometry Sensor Histogram World ParticleFilter Gmapping NoAction.
From Verif.Spec Require Import WorldSpec ParticleSpec TrackSpec LaserFloatSpec.
From Verif.Proofs Require Import HistProofs TbmFloatProofs PoseFloatProofs ParticleProofs WorldProofs NoActionProofs EvenWeightsProofs.
Import ListNotations.
Local Open Scope R_scope.
Local Open Scope outcome_scope.

Lemma F_lt_irrefl (c : F64) : F_fin c = true -> dlt c c = false.
Proof. intros F. apply F_lt_fin_false; auto. lra. Qed.
Lemma nonzero_same (a b : F64) : F_fin a = true -> F_fin b = true -> F2R64 a = F2R64 b -> F2R64 a <> 0 -> a = b.
Proof.
  intros Fa Fb E N. apply B2R_inj; [| |exact E].
  - destruct a; try discriminate Fa; [elim N; reflexivity|reflexivity].
  - rewrite E in N. destruct b; try discriminate Fb; [elim N; reflexivity|reflexivity].
Qed.
Lemma zero_cases (a : F64) : F_fin a = true -> F2R64 a = 0 -> exists s, a = B754_zero 53 1024 s.
Proof.
  intros Fa E. destruct a as [s|s|s pl H|s m e H]; try discriminate Fa; [eauto|exfalso].
  unfold F2R64 in E. cbn [B2R] in E. apply eq_0_F2R in E. destruct s; discriminate E.
Qed.
Lemma add_a_zero (x : F64) s : not_minus_zero x -> dadd x (B754_zero 53 1024 s) = x.
Proof. intros N. destruct x as [s'|s'|s' pl H|s' m e H]; try reflexivity. destruct s', s; try reflexivity; now elim N. Qed.
Lemma add_same (x a b : F64) : not_minus_zero x -> F_fin a = true -> F_fin b = true -> F2R64 a = F2R64 b -> dadd x a = dadd x b.
Proof.
  intros N Fa Fb E. destruct (Req_dec (F2R64 a) 0) as [Z|Z].
  - assert (Zb : F2R64 b = 0) by congruence. destruct (zero_cases a Fa Z) as [s ->]. destruct (zero_cases b Fb Zb) as [s' ->]. now rewrite !add_a_zero.
  - now rewrite (nonzero_same a b).
Qed.
Lemma F_one : F2R64 (dofZ 1) = 1 /\ F_fin (dofZ 1 : F64) = true.
Proof. apply F_ofZ_correct. lia. Qed.
Lemma same_ovf (a : F64) : no_ovf (F2R64 a).
Proof. unfold no_ovf. rewrite rnd_id by apply F_fmt. apply F_abs_lt. Qed.
Lemma one_times (a : F64) : F_fin a = true -> F_fin (dmul (dofZ 1) a) = true /\ F2R64 (dmul (dofZ 1) a) = F2R64 a.
Proof.
  intros F. destruct F_one as [E1 F1]. destruct (F_mul_correct (dofZ 1) a F1 F) as [A B]; [rewrite E1, Rmult_1_l; apply same_ovf|].
  split; [exact B|]. rewrite A, E1, Rmult_1_l. apply rnd_id, F_fmt.
Qed.
Lemma zero_times (a : F64) : F_fin a = true -> F_fin (dmul (dofZ 0) a) = true /\ F2R64 (dmul (dofZ 0) a) = 0.
Proof.
  intros F. destruct F_zero as [E1 F1]. destruct (F_mul_correct (dofZ 0) a F1 F) as [A B]; [rewrite E1, Rmult_0_l; apply no_ovf_1; lra|].
  split; [exact B|]. rewrite A, E1, Rmult_0_l. apply rnd_0.
Qed.
Lemma along_x (a b : F64) : F_fin a = true -> F_fin b = true ->
  let r := dsub (dmul (dofZ 1) a) (dmul (dofZ 0) b) in F_fin r = true /\ F2R64 r = F2R64 a.
Proof.
  intros Fa Fb r. destruct (one_times a Fa) as [F1 E1]. destruct (zero_times b Fb) as [F0 E0].
  destruct (F_sub_correct _ _ F1 F0) as [A B]; [rewrite E1, E0, Rminus_0_r; apply same_ovf|]. split; [exact B|].
  unfold r. rewrite A, E1, E0, Rminus_0_r. apply rnd_id, F_fmt.
Qed.
Lemma along_y (a b : F64) : F_fin a = true -> F_fin b = true ->
  let r := dadd (dmul (dofZ 0) a) (dmul (dofZ 1) b) in F_fin r = true /\ F2R64 r = F2R64 b.
Proof.
  intros Fa Fb r. destruct (one_times b Fb) as [F1 E1]. destruct (zero_times a Fa) as [F0 E0].
  destruct (F_add_correct _ _ F0 F1) as [A B]; [rewrite E1, E0, Rplus_0_l; apply same_ovf|]. split; [exact B|].
  unfold r. rewrite A, E1, E0, Rplus_0_l. apply rnd_id, F_fmt.
Qed.
Lemma minus_self (a : F64) : F_fin a = true -> dsub a a = dofZ 0%Z.
Proof.
  intros F. cbn [dsub FOps]. unfold b64_minus. assert (C := Bminus_correct 53 1024 eq_refl eq_refl binop_nan_pl64 mode_NE a a F F).
  assert (Z : (B2R 53 1024 a - B2R 53 1024 a)%R = 0%R) by ring. rewrite Z, round_0 in C by apply valid_rnd_N. rewrite Rabs_R0, Rlt_bool_true in C by apply bpow_gt_0.
  destruct C as (C1 & C2 & C3). rewrite Rcompare_Eq in C3 by reflexivity.
  destruct (zero_cases (Bminus 53 1024 eq_refl eq_refl binop_nan_pl64 mode_NE a a) C2 C1) as [s E].
  change (dofZ 0%Z : F64) with (B754_zero 53 1024 false). unfold F64 in *. rewrite E in C3 |- *. cbn [Bsign] in C3. rewrite C3. now destruct (Bsign 53 1024 a).
Qed.
Lemma fin_add (x y : F64) : F_fin (dadd x y) = true -> F_fin x = true /\ F_fin y = true.
Proof.
  destruct x as [s|s|s pl H|s m e H], y as [s'|s'|s' pl' H'|s' m' e' H']; intros E; try (split; reflexivity); exfalso; cbn in E; try discriminate E; destruct s, s'; discriminate E.
Qed.

Lemma F2_len {A B} (Q : A -> B -> Prop) l l' : Forall2 Q l l' -> length l = length l'.
Proof. induction 1; cbn; congruence. Qed.
Lemma all_repeat {A} (c : A) l : Forall (fun w => w = c) l -> l = repeat c (length l).
Proof. induction 1 as [|w l -> _ IH]; cbn [repeat length]; congruence. Qed.
Lemma heaviest_last (c : F64) ws : F_fin c = true -> forall i b, Forall (fun w => w = c) ws ->
  heaviest ws i (Some (b, c)) = Some (match ws with [] => b | _ => (i + length ws - 1)%nat end).
Proof.
  intros FC. induction ws as [|w ws IH]; intros i b F; cbn [heaviest]; [reflexivity|]. inversion F; subst.
  rewrite (F_lt_irrefl c FC), IH by assumption.
  cbn [length]. destruct ws; cbn [length]; f_equal; lia.
Qed.
Lemma heaviest_last0 (c : F64) ws : F_fin c = true -> ws <> [] -> Forall (fun w => w = c) ws -> heaviest ws 0 None = Some (length ws - 1)%nat.
Proof.
  destruct ws as [|w ws]; [easy|]. intros FC _ F. inversion F; subst. cbn [heaviest]. rewrite (heaviest_last c) by assumption. cbn [length]. destruct ws; cbn [length]; f_equal; lia.
Qed.
Lemma refs_app_inv {P} (h : list P) xs x ptrs : refs h ptrs (xs ++ [x]) -> exists ps p, ptrs = ps ++ [p] /\ refs h ps xs /\ nth_error h p = Some x.
Proof.
  intros F. apply Forall2_app_inv_r in F as (a & b & Fa & Fb & ->). inversion Fb as [|p ? q ? Hp Hb]; subst. inversion Hb; subst. eauto.
Qed.
Lemma heaviest_ptr_last {G RV : Type} (c : F64) (f : pf (gparticle F64 G RV)) xs x : F_fin c = true -> refs (pf_heap f) (pf_ptrs f) (xs ++ [x]) ->
  Forall (fun y => gp_weight y = c) (xs ++ [x]) -> exists p, heaviest_ptr gp_weight f = Ok p /\ nth_error (pf_heap f) p = Some x /\ nth_error (pf_ptrs f) (length xs) = Some p.
Proof.
  intros FC HR F. unfold heaviest_ptr. rewrite (proj2 (objects_refs _ _ _) HR). cbn [bind].
  rewrite (heaviest_last0 c); [|exact FC|destruct xs; discriminate|now apply Forall_map]. rewrite map_length, app_length. cbn [length].
  replace (length xs + 1 - 1)%nat with (length xs) by lia.
  destruct (refs_app_inv _ _ _ _ HR) as (ps & p & E & R1 & Np). rewrite E.
  assert (L : length ps = length xs) by (eapply F2_len; exact R1).
  exists p. rewrite <- L, nth_error_app2, Nat.sub_diag by lia. cbn [nth_error]. auto.
Qed.

Section Recorder.
  Context {S M G RV : Type} (dcos dsin : F64 -> F64) (rv_sample : RV -> G -> pose F64 * RV * G) (rv_copy : RV -> RV) (rv_zero : RV)
    (adder : M -> pose F64 -> S -> F64 -> F64 -> outcome M).
  Local Notation gp := (gparticle F64 G RV).
  Local Notation run := (gf_run dcos dsin rv_sample rv_copy rv_zero no_action_process adder).
  Hypothesis C1 : dcos (dofZ 0%Z) = dofZ 1%Z.
  Hypothesis S0 : dsin (dofZ 0%Z) = dofZ 0%Z.
  Variable Z : RV -> Prop.
  Hypothesis Z0 : Z rv_zero.
  Hypothesis ZS : forall z g, Z z -> fst (fst (rv_sample z g)) = delta_zero /\ Z (snd (fst (rv_sample z g))).
  Local Notation nmz := pose_without_minus_zero.
  Local Notation fin t := (F_fin (px t) = true /\ F_fin (py t) = true /\ F_fin (pth t) = true).
  Definition follows (t : pose F64) (x : gp) : Prop := gp_pose x = t /\ gp_raw x = t /\ Z (gp_guess x) /\ Z (gp_lim x).
  Lemma follows_update t d x : nmz t -> fin t -> fin d -> follows t x -> follows (pose_add t d) (gp_update_robot_pose dcos dsin d x).
  Proof using C1 S0.
    intros (N1 & N2 & N3) (T1 & T2 & T3) (D1 & D2 & D3) (P & Q & A & B). unfold gp_update_robot_pose. cbv zeta. rewrite P, Q. unfold pose_sub. cbn [pth].
    rewrite (minus_self _ T3), C1, S0.
    unfold follows. cbn [gp_pose gp_raw gp_guess gp_lim gp_move px py pth]. rewrite ?P, ?Q. split; [|auto].
    unfold pose_add. cbn [px py pth]. destruct (along_x _ _ D1 D2) as [FX EX]. destruct (along_y _ _ D1 D2) as [FY EY].
    f_equal; apply add_same; auto.
  Qed.
  Lemma still (p : pose F64) : nmz p -> pose_add p delta_zero = p.
  Proof. destruct p as [a b c]. intros (A & B & C). cbn [px py pth] in *. unfold pose_add, delta_zero. cbn [px py pth]. now rewrite !F_plus_zero. Qed.
  Definition steps (x y : gp) : Prop := (gp_weight y = gp_weight x \/ gp_weight y = dmul (dofZ 1%Z) (gp_weight x)) /\ forall t, nmz t -> follows t x -> follows t y.
  Lemma observe_steps maps k x s maps' k' y : gp_observe rv_sample no_action_process adder maps k x s = Ok (maps', k', y) -> steps x y.
  Proof using ZS.
    unfold gp_observe. destruct (gp_skips x); [intros E; injection E as <- <- <-; split; auto|].
    cbv zeta. set (x1 := if gp_first x then x else _). intros E.
    assert (P1 : gp_weight x1 = gp_weight x /\ forall t, nmz t -> follows t x -> follows t x1).
    { unfold x1. destruct (gp_first x) eqn:Q; [auto|]. assert (V := ZS (gp_guess x) (gp_engine x)). destruct (rv_sample (gp_guess x) (gp_engine x)) as [[n gu] g]. cbn [fst snd] in V.
      split; [reflexivity|]. intros t NZ (A & B & C & D). destruct (V C) as [-> V2]. unfold follows. cbn [gp_move gp_pose gp_raw gp_guess gp_lim]. rewrite A, still by exact NZ. auto. }
    destruct P1 as (P1 & P2). clearbody x1. destruct (nth_error maps (gp_map x1)) as [m|]; [|discriminate].
    unfold no_action_process in E. cbn [bind] in E. apply bind_Ok_inv in E as ([maps1 p1] & E2 & E).
    assert (P4 : gp_weight p1 = gp_weight x1 /\ gp_pose p1 = pose_add (gp_pose x1) delta_zero /\ gp_raw p1 = gp_raw x1 /\ gp_guess p1 = gp_guess x1 /\ gp_lim p1 = gp_lim x1).
    { destruct (_ || _)%bool in E2; [apply bind_Ok_inv in E2 as (m1 & _ & E2)|]; injection E2 as <- <-; cbn [gp_move gp_weight gp_pose gp_raw gp_guess gp_lim]; auto. }
    destruct P4 as (P4 & P5 & P6 & P7 & P8). unfold gp_reset_sm_delta, gp_set_weight in E. cbn [gp_lim gp_engine gp_weight gp_pose gp_raw gp_master gp_first gp_guess gp_map] in E.
    assert (V := ZS (gp_lim p1) (gp_engine p1)). destruct (rv_sample _ _) as [[nx lm] g] in E, V. cbn [fst snd] in V. injection E as _ _ <-.
    split; [cbn [gp_weight]; rewrite P4, P1; now right|].
    intros t NZ H. apply (P2 t NZ) in H as (A & B & C & D). unfold follows. cbn [gp_pose gp_raw gp_guess gp_lim]. rewrite P5, P6, P7, A, still by exact NZ. rewrite P8 in V. destruct (V D). auto.
  Qed.
  Lemma each_steps s ptrs : forall maps k h (xs : list gp) maps' k' h', refs h ptrs xs -> NoDup ptrs ->
    gf_observe_each rv_sample no_action_process adder maps k h ptrs s = Ok (maps', k', h') ->
    (exists ys, refs h' ptrs ys /\ Forall2 steps xs ys) /\ (forall q, ~ In q ptrs -> nth_error h' q = nth_error h q).
  Proof using ZS.
    induction ptrs as [|p ptrs IH]; intros maps sm h xs maps' sm' h' F ND E; cbn [gf_observe_each] in E.
    - injection E as <- <- <-. inversion F; subst. split; [exists []; split; constructor|auto].
    - inversion F as [|? x ? l N F']; subst. unfold deref in E. rewrite N in E. cbn [bind] in E. inversion ND as [|? ? Hn ND']; subst.
      apply bind_Ok_inv in E as ([[maps1 sm1] x1] & E1 & E). apply observe_steps in E1.
      assert (B : (p < length h)%nat) by (apply nth_error_Some; congruence).
      destruct (IH maps1 sm1 (upd h p (fun _ => x1)) l maps' sm' h') as ((ys & R & K') & O); [now apply refs_upd_other|exact ND'|exact E|].
      split.
      + exists (x1 :: ys). split; [|now constructor]. constructor; [|exact R]. rewrite O by exact Hn.
        rewrite upd_nth, Nat.eqb_refl, N by exact B. reflexivity.
      + intros q Hq. rewrite O by (intros H; apply Hq; now right). rewrite upd_nth by exact B.
        destruct (Nat.eqb_spec q p) as [->|]; [elim Hq; now left|reflexivity].
  Qed.

  Definition near (n : nat) (c : F64) : Prop := F_fin c = true /\ Rabs (INR n * F2R64 c - 1) <= / 1000000000.
  Lemma near_keeps n c : (0 < n)%nat -> near n c -> dmul (dofZ 1%Z) c = c.
  Proof.
    intros Hn [F N]. destruct (one_times c F) as [F1 E1]. apply nonzero_same; auto. rewrite E1. intros H. rewrite H in N. rewrite Rmult_0_r, Rminus_0_l, Rabs_Ropp, Rabs_R1 in N. lra.
  Qed.
  Lemma near_weights n c : near n c -> 7 / 8 <= INR n * F2R64 c <= 9 / 8.
  Proof. intros [_ H]. apply Rabs_le_inv in H. lra. Qed.

  Definition rinv (n : nat) (t : pose F64) (f : gfilter F64 M unit G RV) : Prop :=
    exists xs x c, refs (pf_heap (gf_pf f)) (pf_ptrs (gf_pf f)) (xs ++ [x]) /\ NoDup (pf_ptrs (gf_pf f)) /\ (length xs + 1)%nat = n /\
      Forall (fun y => gp_weight y = c) (xs ++ [x]) /\ near n c /\ follows t x /\ nmz t /\ fin t.
  Lemma rinv_pose n t f : rinv n t f -> gf_pose f = Ok t.
  Proof.
    intros (xs & x & c & R1 & _ & _ & W & (FC & _) & (P & _) & _). unfold gf_pose.
    destruct (heaviest_ptr_last _ _ _ _ FC R1 W) as (p & -> & N & _). cbn [bind]. unfold deref. rewrite N. cbn [bind]. now rewrite P.
  Qed.
  Lemma rinv_update n t f d f' : rinv n t f -> fin (pose_add t d) -> gf_update dcos dsin f d = Ok f' -> rinv n (pose_add t d) f' /\ pf_ptrs (gf_pf f') = pf_ptrs (gf_pf f).
  Proof using C1 S0.
    intros (xs & x & c & R1 & ND & L & W & NC & F & NZ & FT) (G1 & G2 & G3) E. unfold gf_update in E.
    cbn [pose_add px py pth] in G1, G2, G3. assert (D1 := proj2 (fin_add _ _ G1)). assert (D2 := proj2 (fin_add _ _ G2)). assert (D3 := proj2 (fin_add _ _ G3)).
    destruct (gf_each_spec (gp_update_robot_pose dcos dsin d) _ _ _ R1 ND) as (h1 & Eh & R2 & _). rewrite Eh in E. cbn [bind] in E. injection E as <-.
    split; [|reflexivity]. exists (map (gp_update_robot_pose dcos dsin d) xs), (gp_update_robot_pose dcos dsin d x), c. cbn [gf_pf pf_heap pf_ptrs].
    rewrite map_app in R2. cbn [map] in R2. split; [exact R2|]. split; [exact ND|]. rewrite map_length. split; [exact L|]. split.
    - change [gp_update_robot_pose dcos dsin d x] with (map (gp_update_robot_pose dcos dsin d) [x]). rewrite <- map_app. apply Forall_map. eapply Forall_impl; [|exact W]. intros a <-. reflexivity.
    - split; [exact NC|]. split; [now apply follows_update|]. split; [|cbn [pose_add px py pth]; auto].
      destruct NZ as (A & B & C). unfold pose_without_minus_zero. cbn [pose_add px py pth]. auto using F_plus_not_minus_zero.
  Qed.
  Lemma rinv_observe n t f s samples f' : INR n <= 1048576 -> rinv n t f -> gf_observe rv_sample rv_copy rv_zero no_action_process adder f s samples = Ok f' ->
    rinv n t f' /\ pf_ptrs (gf_pf f') = pf_ptrs (gf_pf f).
  Proof using ZS.
    intros HN (xs & x & c & R1 & ND & L & W & NC & F & NZ & FT) E. unfold gf_observe in E.
    assert (Hn : (0 < n)%nat) by lia.
    apply bind_Ok_inv in E as ([[maps k] h1] & E1 & E). destruct (each_steps _ _ _ _ _ _ _ _ _ R1 ND E1) as ((ys & R2 & FS) & _).
    apply Forall2_app_inv_l in FS as (ys1 & ys2 & FS1 & FS2 & ->). inversion FS2 as [|? y ? l Hy Hl]; subst ys2. inversion Hl; subst l. clear FS2 Hl.
    assert (LY : length ys1 = length xs) by (symmetry; eapply F2_len; exact FS1).
    assert (K1 := near_keeps n c Hn NC).
    assert (ST : forall a b : gp, steps a b -> gp_weight a = c -> gp_weight b = c) by (intros a b [[Hw|Hw] _] <-; [exact Hw|now rewrite Hw]).
    assert (W1 : Forall (fun y => gp_weight y = c) (ys1 ++ [y])).
    { apply Forall_app in W as [Wa Wb]. apply Forall_app. split.
      - clear - Wa FS1 ST. revert Wa. induction FS1 as [|a b l l' Hab FS IH]; intros Wa; [constructor|]. inversion Wa as [|? ? Wh Wt]; subst. constructor; [exact (ST _ _ Hab eq_refl)|exact (IH Wt)].
      - inversion Wb; subst. constructor; [|constructor]. exact (ST _ _ Hy eq_refl). }
    set (zs := ys1 ++ [y]) in *. assert (LZ : length zs = n) by (unfold zs; rewrite app_length; cbn [length]; lia).
    assert (MZ : map gp_weight zs = repeat c n) by (rewrite <- LZ, <- (map_length gp_weight zs); apply all_repeat; now apply Forall_map).
    destruct (normalize_spec gp_weight gp_set_weight (mkPF h1 (pf_ptrs (gf_pf f))) zs R2 ND) as (p & En & Ep & _ & Rn). rewrite En in E. cbn [bind] in E. rewrite MZ in Rn. cbn [pf_ptrs] in Ep.
    destruct (even_next n c Hn HN (proj1 NC) (near_weights _ _ NC)) as [FC' EC']. assert (NR := even_no_resampling n c Hn HN (proj1 NC) (near_weights _ _ NC)).
    set (tot := total_weight (repeat c n) (dofZ 0%Z : F64)) in *. set (c' := ddiv c tot) in *.
    set (g := fun x0 : gp => gp_set_weight (ddiv (gp_weight x0) tot) x0) in *.
    assert (W2 : Forall (fun y => gp_weight y = c') (map g zs)).
    { apply Forall_map. eapply Forall_impl; [|exact W1]. intros a Ha. unfold g. cbn [gp_set_weight gp_weight]. now rewrite Ha. }
    assert (MG : map gp_weight (map g zs) = repeat c' n) by (rewrite <- LZ, <- (map_length g zs), <- (map_length gp_weight (map g zs)); apply all_repeat; now apply Forall_map).
    assert (HF : f' = mkGF p (gf_trav f) maps k).
    { unfold gf_try_resample in E. cbn [gf_trav gf_pf gf_maps gf_sm] in E. destruct (_ && _)%bool in E; [congruence|].
      unfold pf_try_resample in E. rewrite (proj2 (objects_refs _ _ _) Rn) in E. cbn [bind] in E. rewrite MG, NR in E. cbn [negb bind] in E. congruence. }
    subst f'. cbn [gf_pf]. split; [|exact Ep]. exists (map g ys1), (g y), c'. cbn [gf_pf]. unfold zs in Rn, W2. rewrite map_app in Rn, W2. cbn [map] in Rn, W2.
    split; [exact Rn|]. split; [rewrite Ep; exact ND|]. rewrite map_length, LY. split; [exact L|]. split; [exact W2|]. split; [split; assumption|].
    destruct Hy as [_ Hy]. destruct (Hy t NZ F) as (A & B & C & D). split; [|auto]. unfold follows, g. cbn. auto.
  Qed.
  Lemma rinv_run n h : INR n <= 1048576 -> forall o f t o' f' ns, rinv n t f -> Forall (fun q : pose F64 * _ => fin (fst q)) (track t h) -> run o f h = Ok (o', f', ns) ->
    rinv n (fold_left pose_add (scan_deltas h) t) f' /\ pf_ptrs (gf_pf f') = pf_ptrs (gf_pf f) /\
    (forall id q, In (NPose id q) ns -> In q (map fst (track t h))).
  Proof using C1 S0 ZS.
    intros HN. unfold gf_run. induction h as [|[id|id|id|s] h IH]; intros o f t o' f' ns I FH E; cbn [world_run track] in *; try (eapply IH; eauto; fail).
    - injection E as <- <- <-. split; [exact I|]. split; [reflexivity|]. intros id q [].
    - apply Forall_cons_iff in FH as [FT FH]. cbn [fst] in FT.
      apply bind_Ok_inv in E as ([f3 n3] & E1 & E). apply bind_Ok_inv in E as ([[o1 f4] n4] & E2 & E). injection E as <- <- <-.
      unfold handle_sensor_data in E1. apply bind_Ok_inv in E1 as (f1 & Eu & E1). apply bind_Ok_inv in E1 as (f2 & Eo & E1).
      apply bind_Ok_inv in E1 as (q0 & Eq & E1). apply bind_Ok_inv in E1 as (m0 & _ & E1). injection E1 as <- <-.
      destruct (rinv_update _ _ _ _ _ I FT Eu) as [I1 P1]. destruct (rinv_observe _ _ _ _ _ _ HN I1 Eo) as [I2 P2].
      destruct (IH _ _ _ _ _ _ I2 FH E2) as (I3 & P3 & N3). rewrite (rinv_pose _ _ _ I2) in Eq. injection Eq as <-.
      split; [exact I3|]. split; [congruence|]. intros id q H. cbn [map fst]. apply in_app_or in H as [H|H]; [left|right; eauto].
      apply in_app_or in H as [H|H].
      + unfold notify_with_pose in H. apply in_flat_map in H as (k & _ & H). destruct (locks o k); [|easy]. destruct H as [H|[]]. congruence.
      + unfold notify_with_map in H. apply in_flat_map in H as (k & _ & H). destruct (locks o k); [|easy]. destruct H as [H|[]]. discriminate.
  Qed.
  Lemma upd_last {A} (l : list A) x f : upd (l ++ [x]) (length l) f = l ++ [f x].
  Proof.
    unfold upd. rewrite nth_error_app2, Nat.sub_diag by lia. cbn [nth_error]. rewrite firstn_app, Nat.sub_diag, firstn_all. cbn [firstn]. rewrite app_nil_r.
    rewrite skipn_all2 by (rewrite app_length; cbn; lia). reflexivity.
  Qed.
  Lemma rinv_new guess lim seeds (m0 : M) n f0 : (0 < n)%nat -> INR n <= 1048576 -> gf_new rv_sample rv_copy rv_zero guess lim seeds m0 tt n = Ok f0 -> rinv n delta_zero f0.
  Proof using Z0.
    intros Hn HN. unfold gf_new. set (cr := fun i => gp_create rv_sample rv_copy guess lim 0 (seeds i)). cbv zeta.
    unfold pf_new. cbn [pf_heap pf_ptrs]. set (w := ddiv _ _).
    assert (NW : near n w) by (exact (even_start n Hn HN)). clearbody w.
    set (xs := map (fun i => gp_set_weight w (cr i)) (seq 0 n)).
    assert (R : refs (pf_create gp_set_weight cr n 0 w) (seq 0 n) xs).
    { unfold refs, xs. clear - cr. assert (GG : forall l, Forall (fun i => (i < n)%nat) l -> Forall2 (fun p x => nth_error (pf_create gp_set_weight cr n 0 w) p = Some x) l (map (fun i => gp_set_weight w (cr i)) l)).
      { intros l H. induction H as [|i l Hi H IH]; cbn [map]; constructor; [|exact IH]. rewrite pf_create_nth by exact Hi. reflexivity. }
      apply GG. apply Forall_forall. intros i Hi. apply in_seq in Hi. lia. }
    assert (ND := seq_NoDup n 0).
    destruct (gf_each_spec (gp_sample (G := G)) _ _ _ R ND) as (h & Eg & R' & _). rewrite Eg. cbn [bind].
    set (ys := map gp_sample xs) in R'.
    assert (LY : length ys = n) by (unfold ys, xs; now rewrite !map_length, seq_length).
    assert (Q : Forall (fun y : gp => gp_weight y = w /\ gp_pose y = delta_zero /\ gp_raw y = delta_zero) ys).
    { unfold ys, xs. rewrite map_map. apply Forall_map. apply Forall_forall. intros j _. unfold cr, gp_create, gp_reset_sm_delta. cbn [gp_lim gp_engine].
      destruct (rv_sample _ _) as [[nx lm] g]. cbn [gp_sample gp_set_weight gp_weight gp_pose gp_raw]. auto. }
    destruct (exists_last (l := ys)) as (l & z & EY). { intros H. rewrite H in LY. cbn in LY. lia. }
    rewrite EY in *. rewrite app_length in LY. cbn [length] in LY.
    assert (Wt : Forall (fun y : gp => gp_weight y = w) (l ++ [z])) by (eapply Forall_impl; [|exact Q]; intros a Ha; apply Ha).
    destruct (heaviest_ptr_last w (mkPF h (seq 0 n)) l z (proj1 NW) R' Wt) as (p & Ep & Nz & Np). rewrite Ep. cbn [bind]. intros E. injection E as <-.
    exists l, (gp_mark_master rv_zero z), w. cbn [gf_pf pf_heap pf_ptrs] in *. rewrite <- (upd_last l z (gp_mark_master rv_zero)).
    split; [now apply refs_upd_at|]. split; [exact ND|]. split; [exact LY|]. rewrite upd_last.
    apply Forall_app in Wt as [Wa Wb]. apply Forall_app in Q as [_ Qz]. apply Forall_inv in Qz as (Q1 & Q2 & Q3). split.
    - apply Forall_app. split; [exact Wa|]. constructor; [exact Q1|constructor].
    - split; [exact NW|]. split; [unfold follows; cbn [gp_mark_master gp_pose gp_raw gp_guess gp_lim]; auto|].
      split; [unfold pose_without_minus_zero, not_minus_zero; repeat split; discriminate|]. repeat split.
  Qed.
End Recorder.
