(** The self-check of the multi-resolution map. *)
From Coq Require Import Reals ZArith List Bool Lia Lra.
From Flocq Require Import Core.
From Verif.Base Require Import Outcome Num OrdLaws EReal.
From Verif.Model Require Import MathUtils Geometry Grid Histogram Pyramid SelfCheck.
From Verif.Spec Require Import GridSpec PyramidSpec SelfCheckSpec.
From Verif.Proofs Require Import GridProofs RasterProofs PyramidProofs PyramidShape PyramidRun PyramidBound.
Import ListNotations.
Local Open Scope Z_scope.

Lemma floor_exact_lo (s o : R) (x : Z) : (0 < o < s)%R -> Zfloor ((s * IZR x + o) / s) = x.
Proof. intros H. assert (E := floor_lo s o x 0 H (Z.le_refl 0)). change (2 ^ 0) with 1 in E. rewrite Rmult_1_r in E. now rewrite E, Z.div_1_r. Qed.
Lemma floor_exact_hi (s o : R) (x : Z) : (0 < o < s)%R -> Zfloor ((s * IZR x - o) / s) = x - 1.
Proof.
  intros H. replace x with ((x - 1) + 1) at 1 by lia. assert (E := floor_hi s o (x - 1) 0 H (Z.le_refl 0)). change (2 ^ 0) with 1 in E. rewrite Rmult_1_r in E. now rewrite E, Z.div_1_r.
Qed.

Section Check.
  Context {C : Type}.
  Variables (proto : C) (impact : C -> ER) (is_unknown : C -> bool) (s lo : R).
  Hypothesis s_big : (1 / 1000000000 < s)%R.
  Hypothesis low : (lo <= -2)%R.
  Hypothesis unit_impact : forall x, exists r, impact x = EFin r /\ (Rabs r <= 1)%R.
  Local Notation lev := (level ER C).
  Local Notation INF := (EInf false).
  Local Notation cellb := (cell_bounds INF).

  (** the cells of the finest level that are looked at for a coarse cell *)
  Lemma raster_below K j (fin l : lev) c r cs : lv_scale fin = EFin s -> 1 <= lv_w fin -> 1 <= lv_h fin -> lv_scale l = scale_at s K j -> cellb (lv_scale l) c = Ok r -> level_raster fin r = Ok cs ->
    forall f, In f cs <-> lies_in fin l f c.
  Proof.
    intros HF W1 H1 HL HB HR. unfold lies_in. rewrite HL in *. unfold scale_at in *. destruct (Nat.ltb_spec j K) as [Hj|Hj].
    - (* finite *)
      assert (S0 : (0 < s)%R) by lra. set (n := 2 ^ Z.of_nat j) in *. assert (P : 0 < n) by (apply Z.pow_pos_nonneg; lia). assert (PR : (1 <= IZR n)%R) by (apply IZR_le; lia).
      unfold cell_bounds in HB. cbn [deq EOps E_eq] in HB. unfold world_cell_bounds, mk_rect in HB. cbn [dmul EOps E_mul dofZ] in HB. destruct (_ && _)%bool in HB; [|discriminate].
      match type of HB with Ok ?x = _ => assert (X : r = x) by congruence; subst r end. clear HB.
      unfold level_raster in HR. apply bind_Ok_inv in HR as (ra & E & HR). unfold raster_rect in E. cbn [bot top left right] in E.
      unfold rect_area, vside_len, hside_len in E. cbn [bot top left right] in E. rewrite !E_sub_fin in E. cbn [dmul EOps E_mul dispinf deq E_eq dofZ] in E.
      set (t := (s * IZR n)%R) in *. assert (T : (s <= t)%R) by (unfold t; nra).
      assert (A : R_eq ((t * IZR (cy c + 1) - t * IZR (cy c)) * (t * IZR (cx c + 1) - t * IZR (cx c))) 0 = false).
      { apply R_eq_false. rewrite !plus_IZR. replace ((t * (IZR (cy c) + 1) - t * IZR (cy c)) * (t * (IZR (cx c) + 1) - t * IZR (cx c)))%R with (t * t)%R by ring.
        assert (0 < t * t)%R by (apply Rmult_lt_0_compat; lra). lra. }
      rewrite A in E. cbn [negb andb] in E. rewrite E_lit in E by lia. rewrite !E_add_fin, !E_sub_fin in E. set (o := (1 / 1000000000)%R) in *. assert (O : (0 < o)%R) by (unfold o; lra).
      apply bind_Ok_inv in E as (lb & E1 & E). apply bind_Ok_inv in E as (rt & E2 & E). injection E as <-.
      assert (Q : lb = (n * cx c, n * cy c) /\ rt = (n * (cx c + 1) - 1, n * (cy c + 1) - 1)).
      { unfold world_to_cell in E1, E2. cbn [dispinf EOps negb andb assert_ bind ptx pty fst snd] in E1, E2. rewrite HF in E1, E2. assert (NZ : s <> 0%R) by lra.
        rewrite !E_div_fin in E1, E2 by exact NZ. unfold floor_int in E1, E2. cbn [dfloor EOps] in E1, E2.
        assert (M : forall z, (t * IZR z = s * IZR (n * z))%R) by (intros z; unfold t; rewrite mult_IZR; ring). rewrite !M in E1, E2.
        rewrite !floor_exact_lo in E1 by lra. rewrite !floor_exact_hi in E2 by lra. unfold to_int in E1, E2.
        destruct (in_int _) in E1; [|discriminate]. destruct (in_int _) in E1; [|discriminate]. destruct (in_int _) in E2; [|discriminate]. destruct (in_int _) in E2; [|discriminate]. cbn [bind] in E1, E2.
        split; congruence. }
      destruct Q as [-> ->]. cbn [raster_start r_rt r_lb cx cy fst snd] in HR.
      destruct (raster_to_vector_spec (n * cx c, n * cy c) (n * (cx c + 1) - 1, n * (cy c + 1) - 1) _ (Nat.le_refl _)) as (v & Ev & EB).
      unfold raster_start in HR. cbn [cx cy fst snd] in HR.
      assert (cs = v) as ->. { revert Ev HR. unfold raster_start, box_cells. cbn [cx cy fst snd]. intros Ev HR. rewrite Z2Nat.inj_mul in HR by nia. congruence. }
      destruct EB as (_ & Mem). intros f. rewrite Mem. rewrite HF. unfold covers. cbn [cx cy fst snd].
      assert (Q : forall a b : Z, (n * a <= b <= n * (a + 1) - 1) <-> (t * IZR a <= s * IZR b /\ s * (IZR b + 1) <= t * (IZR a + 1))%R).
      { intros a b. unfold t. split.
        - intros [A1 A2]. assert (B1 : (IZR (n * a) <= IZR b)%R) by (apply IZR_le; lia). assert (B2 : (IZR (b + 1) <= IZR (n * (a + 1)))%R) by (apply IZR_le; lia). rewrite mult_IZR in B1. rewrite plus_IZR, mult_IZR, plus_IZR in B2. split; nra.
        - intros [A1 A2]. assert (B1 : (IZR (n * a) <= IZR b)%R) by (rewrite mult_IZR; nra). assert (B2 : (IZR (b + 1) <= IZR (n * (a + 1)))%R) by (rewrite plus_IZR, mult_IZR, plus_IZR; nra). apply le_IZR in B1. apply le_IZR in B2. lia. }
      destruct f as [f1 f2]. cbn [cx cy fst snd] in *. rewrite (Q (fst c) f1), (Q (snd c) f2). tauto.
    - (* infinite *)
      unfold cell_bounds in HB. cbn [deq EOps E_eq eqb] in HB. unfold mk_rect in HB. cbn in HB. injection HB as <-.
      unfold level_raster, raster_rect in HR. cbn [rect_area vside_len hside_len bot top left right] in HR.
      change (dispinf (rect_area (mkRect (EInf true) (EInf false) (EInf true) (EInf false)))) with true in HR.
      change (deq (rect_area (mkRect (EInf true) (EInf false) (EInf true) (EInf false))) (dofZ 0)) with false in HR. cbn [negb andb bind] in HR.
      set (lb := internal2external (lv_origin fin) (0, 0)) in *. set (rt := internal2external (lv_origin fin) (lv_w fin - 1, lv_h fin - 1)) in *.
      cbn [raster_start r_rt r_lb] in HR.
      assert (Q : lb = (- cx (lv_origin fin), - cy (lv_origin fin)) /\ rt = (lv_w fin - 1 - cx (lv_origin fin), lv_h fin - 1 - cy (lv_origin fin))) by (split; reflexivity).
      destruct Q as [Q1 Q2]. rewrite Q1, Q2 in HR. clear lb rt Q1 Q2.
      match type of HR with raster_to_vector _ (raster_start ?a ?b) = _ => destruct (raster_to_vector_spec a b _ (Nat.le_refl _)) as (v & Ev & EB) end.
      assert (cs = v) as ->. { revert Ev HR. unfold raster_start, box_cells. cbn [cx cy fst snd]. intros Ev HR. rewrite Z2Nat.inj_mul in HR by lia. congruence. }
      destruct EB as (_ & Mem). intros f. rewrite Mem. unfold level_has. cbn [cx cy fst snd]. unfold cx, cy. lia.
  Qed.

  Local Notation known x := (is_unknown x = false).
  Local Notation read := (@read_unbounded ER C).
  Local Notation maxk := (max_known read impact is_unknown).
  Local Notation est := (estimate_max_spe_impact proto (EFin lo) read impact is_unknown).
  Local Notation chk := (check_cell proto INF (EFin lo) read impact is_unknown).
  Local Notation chks := (check_cells proto INF (EFin lo) read impact is_unknown).
  Local Notation chkl := (check_levels proto INF (EFin lo) read impact is_unknown).
  Local Notation val := (validate proto INF (EFin lo) read impact is_unknown).

  Lemma max_known_spec (l : lev) cs : forall m, exists a, maxk l cs (EFin m) = Ok (EFin a) /\ (m <= a)%R /\
    (forall c r, In c cs -> known (lv_cells l c) -> impact (lv_cells l c) = EFin r -> (r <= a)%R) /\
    (a = m \/ exists c, In c cs /\ known (lv_cells l c) /\ impact (lv_cells l c) = EFin a).
  Proof.
    induction cs as [|c cs IH]; intros m; cbn [max_known].
    - exists m. split; [reflexivity|]. split; [lra|]. split; [intros ? ? []|auto].
    - change (read l c) with (Ok (lv_cells l c)). cbn [bind]. destruct (is_unknown (lv_cells l c)) eqn:U.
      + destruct (IH m) as (a & E & L & B & W). exists a. split; [exact E|]. split; [exact L|]. split.
        * intros c' r [<-|I]; [congruence|apply B; exact I].
        * destruct W as [->|(c' & I & W)]; [auto|right; exists c'; split; [now right|exact W]].
      + destruct (unit_impact (lv_cells l c)) as (v & Ev & _). unfold dmax. rewrite Ev. destruct (dlt (EFin v) (EFin m)) eqn:T.
        * apply E_lt_fin in T. destruct (IH m) as (a & E & L & B & W). exists a. split; [exact E|]. split; [exact L|]. split.
          -- intros c' r [<-|I]; [intros _ X; rewrite Ev in X; injection X as <-; lra|apply B; exact I].
          -- destruct W as [->|(c' & I & W)]; [auto|right; exists c'; split; [now right|exact W]].
        * assert (V : (m <= v)%R) by (destruct (Rlt_le_dec v m) as [X|X]; [|exact X]; assert (Y : dlt (EFin v) (EFin m) = true) by (now apply E_lt_fin); congruence).
          destruct (IH v) as (a & E & L & B & W). exists a. split; [exact E|]. split; [lra|]. split.
          -- intros c' r [<-|I]; [intros _ X; rewrite Ev in X; injection X as <-; lra|apply B; exact I].
          -- right. destruct W as [->|(c' & I & W)]; [exists c; split; [now left|auto]|exists c'; split; [now right|exact W]].
  Qed.

  Lemma are_equal_low a : (Rabs a <= 1)%R -> are_equal (EFin a) (EFin lo) = false.
  Proof.
    intros A. unfold are_equal, are_equal_eps, eq_eps. rewrite E_lit by lia. unfold dmax. cbn [dabs EOps dofZ].
    assert (LO : Rabs lo = (- lo)%R) by (apply Rabs_left; lra). rewrite LO.
    assert (T1 : dlt (EFin (Rabs a)) (EFin (- lo)) = true) by (apply E_lt_fin; lra). rewrite T1.
    assert (T2 : dlt (EFin 1) (EFin (- lo)) = true) by (apply E_lt_fin; lra). rewrite T2. rewrite E_sub_fin. cbn [dabs dmul EOps E_mul].
    destruct (dle _ _) eqn:E; [|reflexivity]. apply E_le_fin in E. exfalso. apply Rabs_le_inv in A.
    rewrite Rabs_right in E by lra. lra.
  Qed.
  Lemma are_equal_low_self : are_equal (EFin lo) (EFin lo) = true.
  Proof.
    unfold are_equal, are_equal_eps, eq_eps. rewrite E_lit by lia. unfold dmax. cbn [dabs EOps dofZ].
    assert (LO : Rabs lo = (- lo)%R) by (apply Rabs_left; lra). rewrite LO. assert (T0 : dlt (EFin (- lo)) (EFin (- lo)) = false) by (cbn; apply R_lt_false; lra). rewrite T0.
    assert (T2 : dlt (EFin 1) (EFin (- lo)) = true) by (apply E_lt_fin; lra). rewrite T2. rewrite E_sub_fin. cbn [dabs dmul EOps E_mul].
    apply E_le_fin. rewrite Rminus_diag_eq by reflexivity. rewrite Rabs_R0. lra.
  Qed.

  Lemma le_unit x y : less_or_equal (impact x) (impact y) = true <-> impact_le 1 (impact x) (impact y).
  Proof.
    destruct (unit_impact x) as (a & -> & A), (unit_impact y) as (b & -> & B). rewrite E_less_or_equal_unit by assumption. unfold impact_le. cbn [INR]. split.
    - intros H. exists a, b. repeat split; lra.
    - intros (a' & b' & E1 & E2 & H). injection E1 as <-. injection E2 as <-. lra.
  Qed.

  Definition cell_ok (fin l : lev) (c : coord) : Prop :=
    (forall f, lies_in fin l f c -> known (lv_cells fin f) -> impact_le 1 (impact (lv_cells fin f)) (impact (lv_cells l c))) /\
    ((forall f, lies_in fin l f c -> is_unknown (lv_cells fin f) = true) -> impact_le 1 (impact proto) (impact (lv_cells l c))).

  Lemma check_cell_spec K j (fin l : lev) c b : lv_scale fin = EFin s -> 1 <= lv_w fin -> 1 <= lv_h fin -> lv_scale l = scale_at s K j ->
    chk fin l c = Ok b -> (b = true <-> cell_ok fin l c).
  Proof.
    intros HF W1 H1 HL E. unfold check_cell in E. apply bind_Ok_inv in E as (r & E1 & E). unfold estimate_max_spe_impact in E. apply bind_Ok_inv in E as (m & E2 & E).
    apply bind_Ok_inv in E2 as (cs & E2 & E3). change (read l c) with (Ok (lv_cells l c)) in E. cbn [bind] in E. injection E as <-.
    assert (Mem := raster_below K j fin l c r cs HF W1 H1 HL E1 E2). destruct (max_known_spec fin cs lo) as (a & Ea & La & Ba & Wa). rewrite Ea in E3. cbn [bind] in E3.
    destruct Wa as [->|(f & If & Kf & Ef)].
    - rewrite are_equal_low_self in E3. injection E3 as <-. rewrite le_unit.
      assert (N : forall f, lies_in fin l f c -> is_unknown (lv_cells fin f) = true).
      { intros f I. apply Mem in I. destruct (is_unknown (lv_cells fin f)) eqn:U; [reflexivity|]. destruct (unit_impact (lv_cells fin f)) as (v & Ev & Hv). specialize (Ba f v I U Ev). apply Rabs_le_inv in Hv. lra. }
      unfold cell_ok. split.
      + intros H. split; [|auto]. intros f I U. rewrite (N f I) in U. discriminate.
      + intros [_ H]. now apply H.
    - destruct (unit_impact (lv_cells fin f)) as (v & Ev & Hv). rewrite Ef in Ev. injection Ev as <-. rewrite (are_equal_low a Hv) in E3. injection E3 as <-. rewrite <- Ef, le_unit. unfold cell_ok. split.
      + intros H. split; [|intros N; rewrite (N f (proj1 (Mem f) If)) in Kf; discriminate]. intros g I U. apply Mem in I. destruct (unit_impact (lv_cells fin g)) as (v & Ev & Hg).
        specialize (Ba g v I U Ev). destruct H as (x & y & X & Y & H). rewrite Ef in X. injection X as <-. exists v, y. split; [exact Ev|]. split; [exact Y|]. lra.
      + intros [H _]. apply H; [now apply Mem|exact Kf].
  Qed.

  Lemma check_cells_spec K j (fin l : lev) : lv_scale fin = EFin s -> 1 <= lv_w fin -> 1 <= lv_h fin -> lv_scale l = scale_at s K j -> forall cs b,
    chks fin l cs = Ok b -> (b = true <-> forall c, In c cs -> cell_ok fin l c).
  Proof.
    intros HF W1 H1 HL. induction cs as [|c cs IH]; intros b E; cbn [check_cells] in E.
    - injection E as <-. split; [intros _ c []|auto].
    - apply bind_Ok_inv in E as (b0 & E0 & E). apply (check_cell_spec K j) in E0; auto. destruct b0.
      + rewrite (IH b E). split; [intros H c' [<-|I]; [now apply E0|auto]|intros H c' I; apply H; now right].
      + injection E as <-. split; [discriminate|]. intros H. destruct E0 as [_ E0]. apply E0. apply H. now left.
  Qed.

  Lemma map_cells_in (l : lev) c : In c (map_cells l) <-> level_has l c.
  Proof.
    unfold map_cells. rewrite in_flat_map. unfold level_has. split.
    - intros (x & Ix & I). apply in_map_iff in I as (y & <- & Iy). apply in_seq in Ix. apply in_seq in Iy. cbn. lia.
    - intros [X Y]. exists (Z.to_nat (cx c + cx (lv_origin l))). split; [apply in_seq; lia|]. apply in_map_iff. exists (Z.to_nat (cy c + cy (lv_origin l))). split; [|apply in_seq; lia].
      unfold internal2external, coord_sub. rewrite !Z2Nat.id by lia. destruct c as [c1 c2]. cbn. f_equal; lia.
  Qed.

  Lemma check_levels_spec K (fin : lev) : lv_scale fin = EFin s -> 1 <= lv_w fin -> 1 <= lv_h fin -> forall ls i b, (forall j l, nth_error ls j = Some l -> lv_scale l = scale_at s K (i + j)) ->
    chkl fin ls = Ok b -> (b = true <-> forall j l c, nth_error ls j = Some l -> level_has l c -> cell_ok fin l c).
  Proof.
    intros HF W1 H1. induction ls as [|l ls IH]; intros i b Sc E; cbn [check_levels] in E.
    - injection E as <-. split; [intros _ [|j] l c; discriminate|auto].
    - apply bind_Ok_inv in E as (b0 & E0 & E). assert (S0 := Sc 0%nat l eq_refl). rewrite Nat.add_0_r in S0. apply (check_cells_spec K i) in E0; auto. destruct b0.
      + assert (H0 := proj1 E0 eq_refl). rewrite (IH (S i) b); [|intros j l' N; specialize (Sc (S j) l' N); now rewrite Nat.add_succ_r in Sc|exact E]. split.
        * intros H [|j] l' c N Hc; cbn [nth_error] in N; [injection N as <-; apply H0; now apply map_cells_in|eauto].
        * intros H j l' c N. apply (H (S j)). exact N.
      + injection E as <-. split; [discriminate|]. intros H. apply (proj2 E0). intros c Ic. apply (H 0%nat l c eq_refl). now apply map_cells_in.
  Qed.

  Theorem validate_spec K p b q : good s K p -> val p = Ok (b, q) -> (b = true <-> consistent proto impact is_unknown q).
  Proof.
    intros (L & Sz & A) E. unfold validate in E. destruct (nth_error (py_levels p) 0) as [fin|] eqn:N0; [|discriminate].
    apply bind_Ok_inv in E as (ls & E1 & E). apply bind_Ok_inv in E as (b' & E2 & E). injection E as -> <-.
    destruct (ensure_sized proto s K _ ls L Sz E1) as (new & El & L' & Sz' & Co & _). destruct L as (HK & Len & Sh). destruct L' as (HK' & Len' & Sh').
    assert (N0' : nth_error ls 0 = Some fin). { rewrite El. destruct (py_levels p) as [|x t]; [discriminate|]. destruct K; [lia|]. cbn in *. exact N0. }
    destruct ls as [|x ls]; [discriminate|]. cbn [nth_error] in N0'. injection N0' as ->. cbn [tl] in E2.
    assert (F : lv_scale fin = EFin s). { rewrite (Sh' 0%nat fin eq_refl). unfold scale_at. destruct (Nat.ltb_spec 0 (K + length new)); [|lia]. change (2 ^ Z.of_nat 0) with 1. f_equal. lra. }
    destruct (Sz' fin (or_introl eq_refl)) as [W1 H1].
    assert (X := check_levels_spec (K + length new) fin F W1 H1 ls 1 b (fun j l N => Sh' (S j) l N) E2). rewrite X. unfold consistent. cbn [py_levels]. split.
    - intros H f0 j l c N Hj Nl Hc. cbn [nth_error] in N. injection N as <-. destruct j; [lia|]. exact (H j l c Nl Hc).
    - intros H j l c N Hc. apply (H fin (S j) l c eq_refl); [lia|exact N|exact Hc].
  Qed.

  (** the check answers *)
  Definition fits (j : nat) (l : lev) : Prop := forall c, level_has l c ->
    in_int (2 ^ Z.of_nat j * cx c) = true /\ in_int (2 ^ Z.of_nat j * cy c) = true /\ in_int (2 ^ Z.of_nat j * (cx c + 1) - 1) = true /\ in_int (2 ^ Z.of_nat j * (cy c + 1) - 1) = true.
  Lemma area_total K j (fin l : lev) c : lv_scale fin = EFin s -> 1 <= lv_w fin -> 1 <= lv_h fin -> lv_scale l = scale_at s K j -> ((j < K)%nat -> fits j l) -> level_has l c ->
    exists r cs, cellb (lv_scale l) c = Ok r /\ level_raster fin r = Ok cs /\
      ((j < K)%nat -> exists t, cs = (2 ^ Z.of_nat j * cx c, 2 ^ Z.of_nat j * cy c) :: t).
  Proof.
    intros HF W1 H1 HL Fi Hc. rewrite HL. unfold scale_at. destruct (Nat.ltb_spec j K) as [Hj|Hj].
    - assert (S0 : (0 < s)%R) by lra. destruct (Fi Hj c Hc) as (I1 & I2 & I3 & I4). set (n := 2 ^ Z.of_nat j) in *. assert (P : 0 < n) by (apply Z.pow_pos_nonneg; lia). assert (PR : (1 <= IZR n)%R) by (apply IZR_le; lia).
      set (t := (s * IZR n)%R) in *. assert (T : (s <= t)%R) by (unfold t; nra).
      exists (mkRect (EFin (t * IZR (cy c))) (EFin (t * IZR (cy c + 1))) (EFin (t * IZR (cx c))) (EFin (t * IZR (cx c + 1)))).
      assert (HB : cellb (EFin t) c = Ok (mkRect (EFin (t * IZR (cy c))) (EFin (t * IZR (cy c + 1))) (EFin (t * IZR (cx c))) (EFin (t * IZR (cx c + 1))))).
      { unfold cell_bounds. cbn [deq EOps E_eq]. unfold world_cell_bounds, mk_rect. cbn [dmul EOps E_mul dofZ]. assert (G : forall x, dle (EFin (t * IZR x)) (EFin (t * IZR (x + 1))) = true).
        { intros x. apply E_le_fin. rewrite plus_IZR. lra. }
        rewrite !G. reflexivity. }
      unfold level_raster, raster_rect. cbn [bot top left right]. unfold rect_area, vside_len, hside_len. cbn [bot top left right]. rewrite !E_sub_fin. cbn [dmul EOps E_mul dispinf deq E_eq dofZ].
      assert (A : R_eq ((t * IZR (cy c + 1) - t * IZR (cy c)) * (t * IZR (cx c + 1) - t * IZR (cx c))) 0 = false).
      { apply R_eq_false. rewrite !plus_IZR. replace ((t * (IZR (cy c) + 1) - t * IZR (cy c)) * (t * (IZR (cx c) + 1) - t * IZR (cx c)))%R with (t * t)%R by ring.
        assert (0 < t * t)%R by (apply Rmult_lt_0_compat; lra). lra. }
      rewrite A. cbn [negb andb]. rewrite E_lit by lia. rewrite !E_add_fin, !E_sub_fin. set (o := (1 / 1000000000)%R) in *. assert (O : (0 < o)%R) by (unfold o; lra).
      assert (NZ : s <> 0%R) by lra. assert (M : forall z, (t * IZR z = s * IZR (n * z))%R) by (intros z; unfold t; rewrite mult_IZR; ring).
      assert (X1 : world_to_cell (lv_scale fin) (EFin (t * IZR (cx c) + o), EFin (t * IZR (cy c) + o)) = Ok (n * cx c, n * cy c)).
      { unfold world_to_cell. cbn [dispinf EOps negb andb assert_ bind ptx pty fst snd]. rewrite HF, !E_div_fin by exact NZ. unfold floor_int. cbn [dfloor EOps]. rewrite !M, !floor_exact_lo by lra. unfold to_int. rewrite I1, I2. reflexivity. }
      assert (X2 : world_to_cell (lv_scale fin) (EFin (t * IZR (cx c + 1) - o), EFin (t * IZR (cy c + 1) - o)) = Ok (n * (cx c + 1) - 1, n * (cy c + 1) - 1)).
      { unfold world_to_cell. cbn [dispinf EOps negb andb assert_ bind ptx pty fst snd]. rewrite HF, !E_div_fin by exact NZ. unfold floor_int. cbn [dfloor EOps]. rewrite !M, !floor_exact_hi by lra. unfold to_int. rewrite I3, I4. reflexivity. }
      rewrite X1, X2. cbn [bind raster_start r_rt r_lb].
      match goal with |- context [raster_to_vector ?f _] => set (fuel := f); assert (FU : exists k, fuel = S k) by (assert (ZF : fuel <> 0%nat) by (unfold fuel; cbn [cx cy fst snd]; nia); destruct fuel as [|k]; [easy|eauto]) end.
      destruct (raster_to_vector_spec (n * cx c, n * cy c) (n * (cx c + 1) - 1, n * (cy c + 1) - 1) fuel) as (v & Ev & EB).
      { unfold fuel, box_cells. cbn [cx cy fst snd]. rewrite Z2Nat.inj_mul by nia. apply Nat.le_refl. }
      exists v. split; [exact HB|]. split; [exact Ev|]. intros _. destruct FU as (k & ->). cbn [raster_to_vector] in Ev. unfold raster_has_next, raster_start in Ev. cbn [r_x r_y r_rt cx cy fst snd] in Ev.
      destruct (Z.leb_spec (n * cx c) (n * (cx c + 1) - 1)); [|nia]. destruct (Z.leb_spec (n * cy c) (n * (cy c + 1) - 1)); [|nia]. cbn [andb] in Ev.
      unfold raster_next in Ev. cbn [r_x r_y r_rt r_lb] in Ev. destruct (_ <? _) in Ev; apply bind_Ok_inv in Ev as (t' & _ & Ev); exists t'; symmetry; exact (f_equal (fun o => match o with Ok x => x | _ => v end) Ev).
    - exists (mkRect (EInf true) (EInf false) (EInf true) (EInf false)).
      destruct (raster_infinite (lv_w fin) (lv_h fin) (lv_origin fin) (lv_scale fin) (mkRect (EInf true) (EInf false) (EInf true) (EInf false)) false) as (st & Es & Hs); [reflexivity|reflexivity|].
      unfold level_raster. rewrite Es. cbn [bind].
      assert (Q : r_lb st = (- cx (lv_origin fin), - cy (lv_origin fin)) /\ r_rt st = (lv_w fin - 1 - cx (lv_origin fin), lv_h fin - 1 - cy (lv_origin fin))).
      { unfold raster_rect in Es. change (dispinf (rect_area (mkRect (EInf true) (EInf false) (EInf true) (EInf false)))) with true in Es.
        change (deq (rect_area (mkRect (EInf true) (EInf false) (EInf true) (EInf false))) (dofZ 0)) with false in Es. cbn [negb andb] in Es. injection Es as <-. split; reflexivity. }
      destruct Q as [-> ->]. cbn [cx cy fst snd]. destruct (Hs (Z.to_nat ((lv_w fin - 1 - cx (lv_origin fin) - - cx (lv_origin fin) + 1) * (lv_h fin - 1 - cy (lv_origin fin) - - cy (lv_origin fin) + 1)))) as (v & Ev & _).
      { rewrite <- Z2Nat.inj_mul by lia. apply Nat.eq_le_incl. f_equal. f_equal; lia. }
      exists v. split; [reflexivity|]. split; [exact Ev|]. lia.
  Qed.
  Lemma check_cells_total K j (fin l : lev) : lv_scale fin = EFin s -> 1 <= lv_w fin -> 1 <= lv_h fin -> lv_scale l = scale_at s K j -> ((j < K)%nat -> fits j l) ->
    forall cs, (forall c, In c cs -> level_has l c) -> exists b, chks fin l cs = Ok b.
  Proof.
    intros HF W1 H1 HL Fi. induction cs as [|c cs IH]; intros Hc; cbn [check_cells]; [eauto|].
    destruct (area_total K j fin l c HF W1 H1 HL Fi (Hc c (or_introl eq_refl))) as (r & v & E1 & E2 & _). unfold check_cell, estimate_max_spe_impact. rewrite E1. cbn [bind]. rewrite E2. cbn [bind].
    destruct (max_known_spec fin v lo) as (a & Ea & _). rewrite Ea. cbn [bind read_unbounded]. destruct (less_or_equal _ _); [|eauto]. apply IH. intros c' I. apply Hc. now right.
  Qed.
  Lemma check_levels_total K (fin : lev) : lv_scale fin = EFin s -> 1 <= lv_w fin -> 1 <= lv_h fin -> forall ls i,
    (forall j l, nth_error ls j = Some l -> lv_scale l = scale_at s K (i + j) /\ ((i + j < K)%nat -> fits (i + j) l)) -> exists b, chkl fin ls = Ok b.
  Proof.
    intros HF W1 H1. induction ls as [|l ls IH]; intros i Sc; cbn [check_levels]; [eauto|].
    destruct (Sc 0%nat l eq_refl) as [S1 S2]. rewrite Nat.add_0_r in S1, S2. destruct (check_cells_total K i fin l HF W1 H1 S1 S2 (map_cells l)) as [b Eb]; [intros c; apply map_cells_in|].
    rewrite Eb. cbn [bind]. destruct b; [|eauto]. apply (IH (S i)). intros j l' N. specialize (Sc (S j) l' N). now rewrite Nat.add_succ_r in Sc.
  Qed.

  (** the levels of a new map *)
  Lemma two_pow_fit w : 1 <= w <= 2 -> exists a, 0 <= a <= 30 /\ w <= 2 ^ a /\ (a = 0 \/ 2 ^ (a - 1) < w) /\ a <= 1.
  Proof. intros H. assert (w = 1 \/ w = 2) as [->| ->] by lia; [exists 0|exists 1]; cbn; lia. Qed.
  Lemma new_exact w h p : 1 <= w -> 1 <= h -> pyramid_new proto INF w h (EFin s) = Ok p -> exists a b ls,
    0 <= a <= 30 /\ w <= 2 ^ a /\ (a = 0 \/ 2 ^ (a - 1) < w) /\ 0 <= b <= 30 /\ h <= 2 ^ b /\ (b = 0 \/ 2 ^ (b - 1) < h) /\
    p = mkPyr (new_level proto w h (EFin s) :: ls ++ [new_level proto 1 1 INF]) 0 /\ Z.of_nat (length ls) = Z.max 0 (Z.max a b - 1) /\
    forall m l, nth_error ls m = Some l -> lv_w l = side (2 ^ a) (S m) /\ lv_h l = side (2 ^ b) (S m) /\ lv_scale l = EFin (s * IZR (2 ^ Z.of_nat (S m))) /\
      lv_origin l = default_origin (lv_w l) (lv_h l) /\ forall q, lv_cells l q = proto.
  Proof.
    intros Hw Hh E. unfold pyramid_new in E. apply bind_Ok_inv in E as (ls & E1 & E). injection E as <-. unfold ensure_continuous in E1. cbn [length Nat.ltb Nat.leb Nat.sub nth_error] in E1. cbn [new_level lv_w lv_h lv_scale] in E1.
    destruct (_ && _) eqn:T in E1.
    - apply andb_true_iff in T as [T1 T2]. apply Z.leb_le in T1. apply Z.leb_le in T2. injection E1 as <-.
      destruct (two_pow_fit w) as (a & A1 & A2 & A3 & A4); [lia|]. destruct (two_pow_fit h) as (b & B1 & B2 & B3 & B4); [lia|]. exists a, b, []. split; [exact A1|]. split; [exact A2|]. split; [exact A3|]. split; [exact B1|]. split; [exact B2|]. split; [exact B3|]. split; [reflexivity|].
      split; [cbn; lia|]. intros [|m] l; discriminate.
    - apply bind_Ok_inv in E1 as (w' & Ew & E1). apply bind_Ok_inv in E1 as (h' & Eh & E1). apply bind_Ok_inv in E1 as (l & El & E1). injection E1 as <-.
      apply ge_pow_Ok in Ew as (a & A1 & -> & A2 & A3); [|lia]. apply ge_pow_Ok in Eh as (b & B1 & -> & B2 & B3); [|lia].
      apply new_levels_spec in El as (Len & Lv); [|lia|lia]. exists a, b, l. split; [exact A1|]. split; [exact A2|]. split; [exact A3|]. split; [exact B1|]. split; [exact B2|]. split; [exact B3|]. split; [reflexivity|].
      split; [exact Len|]. intros m x N. exact (Lv s eq_refl m x N).
  Qed.
  Lemma side_fits a k c : 0 <= a <= 30 -> (k <= 30)%nat -> 0 <= c + Z.quot (side (2 ^ a) k) 2 < side (2 ^ a) k -> in_int (2 ^ Z.of_nat k * c) = true /\ in_int (2 ^ Z.of_nat k * (c + 1) - 1) = true.
  Proof.
    intros Ha Hk. rewrite Z.quot_div_nonneg by (unfold side; lia). unfold side. set (n := 2 ^ Z.of_nat k). assert (P : 1 <= n) by (apply (Z.pow_le_mono_r 2 0); lia). assert (P2 : n <= 2 ^ 30) by (apply Z.pow_le_mono_r; lia). change (2 ^ 30) with 1073741824 in P2.
    intros Hc. assert (B : - 2 ^ 30 <= n * c /\ n * (c + 1) <= 2 ^ 30).
    { destruct (Z_le_gt_dec (2 ^ a / n) 2) as [H|H].
      - rewrite Z.max_l in Hc by lia. change (2 / 2) with 1 in Hc. change (2 ^ 30) with 1073741824. nia.
      - rewrite Z.max_r in Hc by lia. assert (A3 : 2 ^ a <= 2 ^ 30) by (apply Z.pow_le_mono_r; lia). assert (M := Z.mul_div_le (2 ^ a) n). set (m := 2 ^ a / n) in *. assert (M2 := Z.mul_div_le m 2). set (u := m / 2) in *. assert (m < 2 * u + 2) by (unfold u; assert (D := Z.mod_pos_bound m 2); assert (D2 := Z.div_mod m 2); lia). nia. }
    change (2 ^ 30) with 1073741824 in B. unfold in_int, int_min, int_max. change (2 ^ 31) with 2147483648. split; apply andb_true_iff; split; apply Z.leb_le; lia.
  Qed.
End Check.
