(** The score of a range of translations on a multi-resolution map: a range's score bounds the scores of the ranges in it. *)
From Coq Require Import Reals ZArith List Lia Lra Bool.
From Flocq Require Import Core.
From Verif.Base Require Import Outcome Num OrdLaws EReal.
From Verif.Model Require Import MathUtils Geometry Grid Histogram Sensor Spe Pyramid M3Engine M3Score.
From Verif.Spec Require Import GeometrySpec PyramidSpec M3Spec M3ScoreSpec.
From Verif.Proofs Require Import GridProofs HistProofs PyramidProofs PyramidShape PyramidRun PyramidBound M3Proofs.
Import ListNotations.
Local Open Scope R_scope.

Lemma E_prob_bounded a : 0 <= a <= 1 -> is_prob_bounded (EFin a) = true.
Proof.
  intros H. unfold is_prob_bounded. cbn [dofZ EOps]. apply andb_true_iff.
  split; apply E_less_or_equal_unit; try (rewrite Rabs_pos_eq; lra); lra.
Qed.
Lemma E_dmax a b : dmax (EFin a) (EFin b) = EFin (Rmax a b).
Proof. unfold dmax. cbn [dlt EOps E_lt]. unfold Rmax. destruct (R_lt a b) eqn:L; [apply R_lt_true in L|apply R_lt_false in L]; destruct (Rle_dec a b); f_equal; lra. Qed.

(** ** the accumulation over the points of a scan *)
Section Mean.
  Variables (weight : Z -> outcome ER) (prob prob' : scan_point ER -> outcome ER) (sigma : R).
  Lemma estimate_loop_pair pts : forall i,
    (forall s, In s pts -> sp_factor s = EFin 1 /\ exists a a', prob s = Ok (EFin a) /\ prob' s = Ok (EFin a') /\ 0 <= a <= 1 /\ 0 <= a' <= 1 /\ a' <= a + sigma) ->
    (forall k, (k < length pts)%nat -> exists w, weight (i + Z.of_nat k)%Z = Ok (EFin w) /\ 0 <= w) ->
    forall tp tp' tw, exists tot tot' w, estimate_loop weight prob i pts (EFin tp) (EFin tw) = Ok (EFin (tp + tot), EFin (tw + w)) /\
      estimate_loop weight prob' i pts (EFin tp') (EFin tw) = Ok (EFin (tp' + tot'), EFin (tw + w)) /\
      0 <= w /\ 0 <= tot <= w /\ 0 <= tot' <= w /\ tot' <= tot + sigma * w /\
      ((exists k wk, (k < length pts)%nat /\ weight (i + Z.of_nat k)%Z = Ok (EFin wk) /\ 0 < wk) -> 0 < w).
  Proof.
    induction pts as [|s pts IH]; intros i Hp Hw tp tp' tw; cbn [estimate_loop].
    - exists 0, 0, 0. rewrite !Rplus_0_r. repeat split; try lra. intros (k & wk & L & _). cbn in L. lia.
    - destruct (Hp s (or_introl eq_refl)) as (F & a & a' & E & E' & A & A' & L). rewrite E, E', F. cbn [bind].
      destruct (Hw 0%nat ltac:(cbn; lia)) as (w0 & W0 & N0). rewrite Z.add_0_r in W0. rewrite W0. cbn [bind dmul dadd EOps E_mul E_add].
      destruct (IH (i + 1)%Z (fun x I => Hp x (or_intror I))) with (tp := tp + a * w0 * 1) (tp' := tp' + a' * w0 * 1) (tw := tw + w0) as (tot & tot' & w & E1 & E2 & Nw & B & B' & M & Po).
      { intros k Hk. destruct (Hw (S k) ltac:(cbn; lia)) as (wk & Wk & Nk). exists wk. split; [|exact Nk]. rewrite <- Wk. f_equal. lia. }
      exists (a * w0 + tot), (a' * w0 + tot'), (w0 + w). rewrite E1, E2.
      assert (0 <= a * w0 <= w0) by nra. assert (0 <= a' * w0 <= w0) by nra. assert (a' * w0 <= a * w0 + sigma * w0) by nra.
      repeat split; try (f_equal; f_equal; f_equal; ring); try lra.
      intros (k & wk & Hk & Wk & Pk). destruct k as [|k]; [rewrite Z.add_0_r, W0 in Wk; injection Wk as <-; lra|].
      assert (0 < w); [|lra]. apply Po. exists k, wk. cbn in Hk. split; [lia|]. split; [|exact Pk]. rewrite <- Wk. f_equal. lia.
  Qed.
End Mean.

Section Score.
  Context {C : Type}.
  Variables (dcos dsin : ER -> ER) (datan2 : ER -> ER -> ER).
  Variables (proto : C) (impact : C -> ER) (s : R) (K : nat) (p : pyramid ER C).
  Hypothesis s_pos : 0 < s.
  Hypothesis K_pos : (1 <= K)%nat.
  Hypothesis sh : shaped s K (py_levels p).
  Hypothesis co : cont (py_levels p).
  Hypothesis unit : forall x, exists r, impact x = EFin r /\ 0 <= r <= 1.
  (** a coarse cell bounds the cells it covers *)
  Hypothesis cov : forall i j li lj f c, (i < j)%nat -> nth_error (py_levels p) i = Some li -> nth_error (py_levels p) j = Some lj ->
    covers (lv_scale li) (lv_scale lj) f c -> impact_le (j - i) (impact (lv_cells li f)) (impact (lv_cells lj c)).

  Definition size (k : nat) : R := s * IZR (2 ^ Z.of_nat k).
  Definition cellz (k : nat) (x : R) : Z := if (k <? K)%nat then Zfloor (x / size k) else 0%Z.
  Lemma size_pos k : 0 < size k.
  Proof. apply Rmult_lt_0_compat; [exact s_pos|]. apply IZR_lt. apply Z.pow_pos_nonneg; lia. Qed.
  Lemma size_ge k : s <= size k.
  Proof. unfold size. assert (1 <= IZR (2 ^ Z.of_nat k)). { apply IZR_le. assert (0 < 2 ^ Z.of_nat k)%Z by (apply Z.pow_pos_nonneg; lia). lia. } nra. Qed.
  Definition reach (x : R) : Prop := Rabs x <= s * IZR (2 ^ 30).

  Lemma cellz_int k x : reach x -> in_int (cellz k x) = true.
  Proof.
    intros H. unfold cellz. destruct (k <? K)%nat; [|reflexivity]. assert (P := size_pos k). assert (G := size_ge k). apply Rabs_le_inv in H.
    assert (B : - IZR (2 ^ 30) <= x / size k <= IZR (2 ^ 30)).
    { assert (0 < IZR (2 ^ 30)) by (apply IZR_lt; reflexivity). unfold Rdiv. split; apply Rmult_le_reg_r with (size k); try exact P; rewrite Rmult_assoc, Rinv_l by lra; nra. }
    assert (L : (- 2 ^ 30 <= Zfloor (x / size k))%Z) by (apply Zfloor_lub; rewrite opp_IZR; lra).
    assert (U : IZR (Zfloor (x / size k)) <= x / size k) by apply Zfloor_lb.
    assert (U' : (Zfloor (x / size k) <= 2 ^ 30)%Z) by (apply le_IZR; lra).
    unfold in_int, int_min, int_max. apply andb_true_iff. split; apply Z.leb_le; lia.
  Qed.
  Lemma to_cell k x y : reach x -> reach y -> world_to_cell (scale_at s K k) (EFin x, EFin y) = Ok (cellz k x, cellz k y).
  Proof.
    intros Hx Hy. unfold world_to_cell. cbn [dispinf EOps negb andb assert_ bind ptx pty fst snd]. assert (Ix := cellz_int k x Hx). assert (Iy := cellz_int k y Hy).
    unfold scale_at. unfold cellz in *. fold (size k). destruct (k <? K)%nat.
    - rewrite !E_div_fin by (assert (P := size_pos k); lra). unfold floor_int, to_int. cbn [dfloor EOps]. rewrite Ix, Iy. reflexivity.
    - cbn [ddiv EOps E_div]. unfold floor_int. cbn [dfloor EOps to_int]. rewrite Zfloor_IZR. cbn. reflexivity.
  Qed.
  Lemma cellz_le k x y : x <= y -> (cellz k x <= cellz k y)%Z.
  Proof. intros H. unfold cellz. destruct (k <? K)%nat; [|lia]. apply Zfloor_le. apply Rmult_le_compat_r; [|exact H]. left. apply Rinv_0_lt_compat, size_pos. Qed.
  Lemma cellz_near k x y : x <= y -> ((k < K)%nat -> y - x <= size k) -> (cellz k y <= cellz k x + 1)%Z.
  Proof.
    intros H B. unfold cellz. destruct (Nat.ltb_spec k K) as [L|L]; [|lia]. specialize (B L). assert (P := size_pos k).
    assert (A : y / size k <= x / size k + 1).
    { apply Rmult_le_reg_r with (size k); [exact P|]. rewrite Rmult_plus_distr_r. unfold Rdiv. rewrite !Rmult_assoc, Rinv_l by lra. lra. }
    assert (U := Zfloor_ub (x / size k)). assert (L' := Zfloor_lb (y / size k)).
    assert (Q : IZR (Zfloor (y / size k)) < IZR (Zfloor (x / size k) + 1 + 1)) by (rewrite !plus_IZR; lra). apply lt_IZR in Q. lia.
  Qed.

  (** the cells examined around a point *)
  Definition boxed (r : rect R) : Prop := bot r < top r /\ left r < right r \/ bot r = top r /\ left r = right r.
  Definition reaches (r : rect R) : Prop := reach (bot r) /\ reach (top r) /\ reach (left r) /\ reach (right r).
  Definition fits (k : nat) (r : rect R) : Prop := (k < K)%nat -> top r - bot r <= size k /\ right r - left r <= size k.
  Definition cell_in (k : nat) (r : rect R) (c : coord) : Prop :=
    (cellz k (left r) <= cx c <= cellz k (right r))%Z /\ (cellz k (bot r) <= cy c <= cellz k (top r))%Z.
  Lemma area_cells_E fuel k (l : level ER C) r : (4 <= fuel)%nat -> lv_scale l = scale_at s K k -> boxed r -> reaches r -> fits k r ->
    exists cs, area_cells (level_omap l) fuel (er r) = Ok cs /\ forall c, In c cs <-> cell_in k r c.
  Proof.
    intros Hf Sc Bx (R1 & R2 & R3 & R4) Fi. unfold area_cells, raster_rect, level_omap. cbn [om_w om_h om_origin om_scale]. rewrite Sc.
    assert (A : rect_area (er r) = EFin ((top r - bot r) * (right r - left r))) by reflexivity. rewrite A. cbn [dispinf deq EOps E_eq dofZ].
    assert (LE : bot r <= top r /\ left r <= right r) by (destruct Bx; lra). destruct LE as [LE1 LE2].
    assert (NX : (cellz k (right r) <= cellz k (left r) + 1)%Z) by (apply cellz_near; [lra|intros H; now apply Fi]).
    assert (NY : (cellz k (top r) <= cellz k (bot r) + 1)%Z) by (apply cellz_near; [lra|intros H; now apply Fi]).
    assert (MX := cellz_le k _ _ LE2). assert (MY := cellz_le k _ _ LE1).
    assert (V : forall lb rt, lb = (cellz k (left r), cellz k (bot r)) -> rt = (cellz k (right r), cellz k (top r)) ->
      exists cs, raster_to_vector fuel (raster_start lb rt) = Ok cs /\ forall c, In c cs <-> cell_in k r c).
    { intros lb rt -> ->. destruct (raster_to_vector_spec (cellz k (left r), cellz k (bot r)) (cellz k (right r), cellz k (top r)) fuel) as (cs & E & _ & En).
      { unfold box_cells. cbn [cx cy fst snd]. apply Nat.le_trans with 4%nat; [|exact Hf]. change 4%nat with (2 * 2)%nat. apply Nat.mul_le_mono; lia. }
      exists cs. split; [exact E|]. intros c. rewrite En. reflexivity. }
    destruct Bx as [[B1 B2]|[B1 B2]].
    - replace (R_eq ((top r - bot r) * (right r - left r)) 0) with false by (symmetry; apply R_eq_false; assert (0 < (top r - bot r) * (right r - left r)) by (apply Rmult_lt_0_compat; lra); lra).
      cbn [negb andb er bot top left right dofZ EOps]. rewrite !E_add_fin, !E_sub_fin, !Rplus_0_r, !Rminus_0_r. rewrite !to_cell by assumption. cbn [bind]. now apply V.
    - replace (R_eq ((top r - bot r) * (right r - left r)) 0) with true by (symmetry; apply R_eq_true; rewrite B1, B2; ring).
      cbn [negb andb er bot top left right]. rewrite !to_cell by assumption. cbn [bind]. apply V; [reflexivity|]. now rewrite B1, B2.
  Qed.

  (** the greatest impact *)
  Lemma max_loop_E (l : level ER C) cs : forall b, 0 <= b <= 1 ->
    exists v, max_loop (fun c => Ok (impact c)) (level_omap l) cs (EFin b) = Ok (EFin v) /\ b <= v <= 1 /\
      (forall c a, In c cs -> impact (lv_cells l c) = EFin a -> a <= v) /\ (v = b \/ exists c, In c cs /\ impact (lv_cells l c) = EFin v).
  Proof.
    induction cs as [|c cs IH]; intros b Hb; cbn [max_loop].
    - exists b. split; [reflexivity|]. split; [lra|]. split; [intros c a []|now left].
    - unfold cell_impact at 1. cbn [level_omap om_cell bind]. destruct (unit (lv_cells l c)) as (a & Ea & Ha). rewrite Ea, E_prob_bounded by exact Ha. cbn [assert_ bind].
      rewrite E_dmax. assert (M1 := Rmax_l a b). assert (M2 := Rmax_r a b).
      destruct (IH (Rmax a b)) as (v & E & B & Up & At); [split; [lra|apply Rmax_lub; lra]|]. exists v. split; [exact E|]. split; [lra|]. split.
      + intros c' a' [<-|I] E'; [|now apply (Up c')]. rewrite Ea in E'. injection E' as <-. lra.
      + destruct At as [At|(c' & I & E')]; [|right; exists c'; split; [now right|exact E']]. unfold Rmax in At. destruct (Rle_dec a b); [now left|]. right. exists c. split; [now left|]. now rewrite Ea, At.
  Qed.
  Definition area_max (k : nat) (l : level ER C) (r : rect R) (v : R) : Prop :=
    0 <= v <= 1 /\ (forall c a, cell_in k r c -> impact (lv_cells l c) = EFin a -> a <= v) /\ (v = 0 \/ exists c, cell_in k r c /\ impact (lv_cells l c) = EFin v).
  Lemma max_pe_E fuel k (l : level ER C) r : (4 <= fuel)%nat -> lv_scale l = scale_at s K k -> boxed r -> reaches r -> fits k r ->
    exists v, max_pe (fun c => Ok (impact c)) (level_omap l) fuel (er r) = Ok (EFin v) /\ area_max k l r v.
  Proof.
    intros Hf Sc Bx Rc Fi. destruct (area_cells_E fuel k l r Hf Sc Bx Rc Fi) as (cs & E & M). unfold max_pe. rewrite E. cbn [bind dofZ EOps].
    destruct (max_loop_E l cs 0 ltac:(lra)) as (v & E' & B & Up & At). exists v. split; [exact E'|]. split; [lra|]. split.
    - intros c a I. apply Up. now apply M.
    - destruct At as [At|(c & I & Ec)]; [now left|]. right. exists c. split; [now apply M|exact Ec].
  Qed.

  (** nesting *)
  Definition parent (d : nat) (j : nat) (c : coord) : coord := if (j <? K)%nat then (cx c / 2 ^ Z.of_nat d, cy c / 2 ^ Z.of_nat d)%Z else (0, 0)%Z.
  Lemma cellz_parent i d x : (i + d < K)%nat -> cellz (i + d) x = (cellz i x / 2 ^ Z.of_nat d)%Z.
  Proof.
    intros H. unfold cellz. destruct (Nat.ltb_spec (i + d) K); [|lia]. destruct (Nat.ltb_spec i K); [|lia].
    assert (P2 : (0 < 2 ^ Z.of_nat d)%Z) by (apply Z.pow_pos_nonneg; lia). assert (PR : 0 < IZR (2 ^ Z.of_nat d)) by (apply IZR_lt; exact P2).
    assert (Si : size (i + d) = size i * IZR (2 ^ Z.of_nat d)) by (unfold size; rewrite Nat2Z.inj_add, Z.pow_add_r, mult_IZR by lia; ring).
    assert (Pi := size_pos i). rewrite Si. replace (x / (size i * IZR (2 ^ Z.of_nat d))) with ((x / size i) / IZR (2 ^ Z.of_nat d)) by (field; lra).
    set (y := x / size i). set (q := (2 ^ Z.of_nat d)%Z) in *. apply Zfloor_imp. assert (L := Zfloor_lb y). assert (U := Zfloor_ub y). set (z := Zfloor y) in *.
    assert (D := Z.div_mod z q ltac:(lia)). assert (M := Z.mod_pos_bound z q P2). rewrite plus_IZR.
    assert (EZ : IZR z = IZR q * IZR (z / q) + IZR (z mod q)) by (rewrite <- mult_IZR, <- plus_IZR; f_equal; exact D).
    assert (0 <= IZR (z mod q)) by (apply IZR_le; lia). assert (IZR (z mod q) <= IZR q - 1) by (rewrite <- minus_IZR; apply IZR_le; lia).
    split; [apply Rmult_le_reg_r with (IZR q)|apply Rmult_lt_reg_r with (IZR q)]; try exact PR; unfold Rdiv; rewrite Rmult_assoc, Rinv_l by lra; lra.
  Qed.
  Definition sub (a b : rect R) : Prop := left b <= left a /\ right a <= right b /\ bot b <= bot a /\ top a <= top b.
  Lemma parent_in i d r r' c : sub r' r -> (i + d <= K)%nat -> cell_in i r' c -> cell_in (i + d) r (parent d (i + d) c).
  Proof.
    intros (S1 & S2 & S3 & S4) Hk ([A1 A2] & [A3 A4]). unfold cell_in, parent. destruct (Nat.ltb_spec (i + d) K) as [L|L].
    - cbn [cx cy fst snd]. assert (P2 : (0 < 2 ^ Z.of_nat d)%Z) by (apply Z.pow_pos_nonneg; lia).
      assert (X1 := cellz_le (i + d) _ _ S1). assert (X2 := cellz_le (i + d) _ _ S2). assert (X3 := cellz_le (i + d) _ _ S3). assert (X4 := cellz_le (i + d) _ _ S4).
      rewrite (cellz_parent i d (left r')) in X1 by exact L. rewrite (cellz_parent i d (right r')) in X2 by exact L. rewrite (cellz_parent i d (bot r')) in X3 by exact L. rewrite (cellz_parent i d (top r')) in X4 by exact L.
      assert (Y1 := Z.div_le_mono _ _ _ P2 A1). assert (Y2 := Z.div_le_mono _ _ _ P2 A2). assert (Y3 := Z.div_le_mono _ _ _ P2 A3). assert (Y4 := Z.div_le_mono _ _ _ P2 A4). lia.
    - unfold cellz. destruct (Nat.ltb_spec (i + d) K); [lia|]. cbn. lia.
  Qed.
  Lemma parent_covers i d c : (i < K)%nat -> (i + d <= K)%nat -> covers (scale_at s K i) (scale_at s K (i + d)) c (parent d (i + d) c).
  Proof.
    intros Hi Hk. unfold scale_at, parent. destruct (Nat.ltb_spec i K); [|lia]. destruct (Nat.ltb_spec (i + d) K) as [L|L]; cbn [covers]; [|reflexivity]. cbn [cx cy fst snd].
    fold (size i). fold (size (i + d)). assert (P2 : (0 < 2 ^ Z.of_nat d)%Z) by (apply Z.pow_pos_nonneg; lia). assert (PR : 0 < IZR (2 ^ Z.of_nat d)) by (apply IZR_lt; exact P2).
    assert (Si : size (i + d) = size i * IZR (2 ^ Z.of_nat d)) by (unfold size; rewrite Nat2Z.inj_add, Z.pow_add_r, mult_IZR by lia; ring).
    assert (Pi := size_pos i). rewrite Si. set (q := (2 ^ Z.of_nat d)%Z) in *.
    assert (G : forall z, size i * IZR q * IZR (z / q) <= size i * IZR z /\ size i * (IZR z + 1) <= size i * IZR q * (IZR (z / q) + 1)).
    { intros z. assert (D := Z.div_mod z q ltac:(lia)). assert (M := Z.mod_pos_bound z q P2).
      assert (EZ : IZR z = IZR q * IZR (z / q) + IZR (z mod q)) by (rewrite <- mult_IZR, <- plus_IZR; f_equal; exact D).
      assert (0 <= IZR (z mod q)) by (apply IZR_le; lia). assert (IZR (z mod q) <= IZR q - 1) by (rewrite <- minus_IZR; apply IZR_le; lia).
      rewrite !Rmult_assoc. split; apply Rmult_le_compat_l; lra. }
    destruct (G (cx c)), (G (cy c)). auto.
  Qed.
  Lemma area_max_le i j li lj r r' v v' : (i <= j)%nat -> nth_error (py_levels p) i = Some li -> nth_error (py_levels p) j = Some lj -> sub r' r ->
    area_max i li r' v' -> area_max j lj r v -> v' <= v + INR K * (1 / 10000000).
  Proof.
    intros Hij Ni Nj Sb (B' & _ & [E0|(c & I & Ec)]) (B & Up & _).
    - assert (X := pos_INR K). nra.
    - assert (Hj : (j <= K)%nat) by (assert (j < length (py_levels p))%nat by (apply nth_error_Some; congruence); destruct sh as [Len _]; lia).
      apply Nat.le_lteq in Hij as [Hij|Hij].
      + replace j with (i + (j - i))%nat in * by lia. set (d := (j - i)%nat) in *.
        assert (Pc := parent_in i d r r' c Sb Hj I). assert (Cv := parent_covers i d c ltac:(lia) Hj).
        rewrite <- (proj2 sh _ _ Ni), <- (proj2 sh _ _ Nj) in Cv. destruct (cov i (i + d)%nat li lj c _ ltac:(lia) Ni Nj Cv) as (a & b & Ea & Eb & Hab).
        rewrite Ec in Ea. injection Ea as <-. assert (X := Up _ b Pc Eb). assert (INR (i + d - i) <= INR K) by (apply le_INR; lia). lra.
      + subst j. assert (li = lj) by congruence. subst lj. assert (Pc := parent_in i 0 r r' c Sb ltac:(lia) I). rewrite Nat.add_0_r in Pc.
        assert (X : cell_in i r c).
        { destruct Sb as (S1 & S2 & S3 & S4). destruct I as [[A1 A2] [A3 A4]]. assert (X1 := cellz_le i _ _ S1). assert (X2 := cellz_le i _ _ S2). assert (X3 := cellz_le i _ _ S3). assert (X4 := cellz_le i _ _ S4).
          split; lia. }
        assert (Y := Up c v' X Ec). assert (Z := pos_INR K). nra.
  Qed.

  (** the chosen level *)
  Lemma rescale_E t : exists q k l, rescale proto p (EFin t) = Ok q /\ py_active q = k /\ py_levels q = py_levels p /\ nth_error (py_levels p) k = Some l /\
    dle (EFin t) (lv_scale l) = true /\ forall j l', (j < k)%nat -> nth_error (py_levels p) j = Some l' -> dle (EFin t) (lv_scale l') = false.
  Proof.
    assert (E := cont_ensure proto (py_levels p) co).
    assert (T : exists q, rescale proto p (EFin t) = Ok q).
    { unfold rescale. rewrite E. cbn [bind]. destruct (nth_error (py_levels p) K) as [l|] eqn:N; [|apply nth_error_None in N; destruct sh as [Len _]; lia].
      destruct (find_level_total (py_levels p) (EFin t) 0) as [id F].
      { exists l. split; [eapply nth_error_In; eauto|]. rewrite (proj2 sh _ _ N). unfold scale_at. destruct (Nat.ltb_spec K K); [lia|reflexivity]. }
      rewrite F. cbn [bind]. unfold set_scale_id. cbn [py_levels]. rewrite E. cbn [bind]. apply find_level_Ok in F as (l' & _ & N' & _). rewrite Nat.sub_0_r in N'.
      destruct (Nat.ltb_spec id (length (py_levels p))) as [B|B]; [cbn; eauto|apply nth_error_None in B; congruence]. }
    destruct T as (q & Q). exists q, (py_active q). apply rescale_Ok in Q as QQ. destruct QQ as (E1 & l & N & T1 & T2). rewrite E in E1. injection E1 as E1. rewrite <- E1 in *. exists l. auto 10.
  Qed.

  Variables (weight : list (scan_point ER) -> Z -> outcome ER) (fuel : nat) (rx ry : R) (rth : ER) (pts : list (scan_point ER)) (W : rect R).
  Hypothesis fuel_ok : (4 <= fuel)%nat.
  Hypothesis pts_ok : forall q, In q pts -> exists x y o, q = sp_make_cartesian (EFin x, EFin y) o /\
    reach (x + rx + left W) /\ reach (x + rx + right W) /\ reach (y + ry + bot W) /\ reach (y + ry + top W).
  Hypothesis weights_ok : forall k, (k < length pts)%nat -> exists w, weight pts (Z.of_nat k) = Ok (EFin w) /\ 0 <= w.
  Hypothesis weights_pos : exists k w, (k < length pts)%nat /\ weight pts (Z.of_nat k) = Ok (EFin w) /\ 0 < w.
  Definition prob_of (r : rect ER) : outcome (option ER) := match_prob dcos dsin datan2 proto impact weight fuel p (mkPose (EFin rx) (EFin ry) rth) pts r.

  Definition moved (x y : R) (r : rect R) : rect R := mkRect (y + ry + bot r) (y + ry + top r) (x + rx + left r) (x + rx + right r).
  Lemma reach_between a b c : reach a -> reach b -> a <= c <= b -> reach c.
  Proof. unfold reach. intros A B H. apply Rabs_le_inv in A. apply Rabs_le_inv in B. apply Rabs_le. lra. Qed.
  Lemma point_prob_E aoo tp x y o r : bot r <= top r -> left r <= right r ->
    point_prob dcos dsin datan2 aoo (dadd (EFin rx) (ptx (rect_center (er r))), dadd (EFin ry) (pty (rect_center (er r)))) tp true (er r) (sp_make_cartesian (EFin x, EFin y) o) =
    aoo (EFin (x + (rx + (left r + (right r - left r) / 2))), EFin (y + (ry + (bot r + (top r - bot r) / 2)))) (er (moved x y r)).
  Proof.
    intros H1 H2. unfold point_prob, sp_move_origin, sp_make_cartesian, sp_x, sp_y, rect_center, hside_len, vside_len, er. cbn [sp_polar sp_u sp_v ptx pty fst snd bot top left right bind].
    rewrite !E_sub_fin. cbn [dofZ EOps]. rewrite !E_div_fin by lra. rewrite !E_add_fin. unfold move_center, hside_len, vside_len. cbn [bot top left right ptx pty fst snd]. rewrite !E_sub_fin. cbn [dofZ EOps]. rewrite !E_div_fin by lra.
    rewrite !E_sub_fin, !E_add_fin. unfold mk_rect. rewrite !(proj2 (E_le_fin _ _)) by lra. cbn [andb bind]. f_equal. unfold moved. cbn [bot top left right]. f_equal; f_equal; field.
  Qed.

  Lemma prob_pair r r' : sub r W -> sub r' r -> boxed r -> boxed r' ->
    exists v v', prob_of (er r) = Ok (Some (EFin v)) /\ prob_of (er r') = Ok (Some (EFin v')) /\ 0 <= v <= 1 /\ 0 <= v' <= 1 /\ v' <= v + INR K * (1 / 10000000).
  Proof.
    intros SW Sr Br Br'. assert (LE : bot r <= top r /\ left r <= right r) by (destruct Br; lra). assert (LE' : bot r' <= top r' /\ left r' <= right r') by (destruct Br'; lra).
    unfold prob_of, match_prob.
    assert (Sz : forall a, dmax (vside_len (er a)) (hside_len (er a)) = EFin (Rmax (top a - bot a) (right a - left a))) by (intros a; unfold vside_len, hside_len, er; cbn [bot top left right]; rewrite !E_sub_fin; apply E_dmax).
    rewrite !Sz. set (t := Rmax (top r - bot r) (right r - left r)). set (t' := Rmax (top r' - bot r') (right r' - left r')).
    assert (Tt : t' <= t).
    { destruct Sr as (S1 & S2 & S3 & S4). unfold t, t'. assert (A := Rmax_l (top r - bot r) (right r - left r)). assert (B := Rmax_r (top r - bot r) (right r - left r)). apply Rmax_lub; lra. }
    destruct (rescale_E t) as (q & k & l & Q & Ak & Lv & N & T1 & T2). destruct (rescale_E t') as (q' & k' & l' & Q' & Ak' & Lv' & N' & T1' & T2'). rewrite Q, Q'. cbn [bind].
    unfold active_omap. rewrite Ak, Lv, N, Ak', Lv', N'. cbn [bind].
    assert (Kk : (k' <= k)%nat).
    { destruct (Nat.le_gt_cases k' k) as [|G]; [assumption|]. specialize (T2' k l G N). rewrite (proj2 sh _ _ N) in T1, T2'. unfold scale_at in *. destruct (k <? K)%nat; [|discriminate].
      apply E_le_fin in T1.  assert (X : dle (EFin t') (EFin (s * IZR (2 ^ Z.of_nat k))) = true) by (apply E_le_fin; lra). congruence. }
    assert (Fit : forall a ka la, bot a <= top a -> left a <= right a -> nth_error (py_levels p) ka = Some la -> dle (EFin (Rmax (top a - bot a) (right a - left a))) (lv_scale la) = true -> forall x y, fits ka (moved x y a)).
    { intros a ka la _ _ Na Ta x y Hk. rewrite (proj2 sh _ _ Na) in Ta. unfold scale_at in Ta. destruct (Nat.ltb_spec ka K); [|lia]. apply E_le_fin in Ta. fold (size ka) in Ta.
      assert (A := Rmax_l (top a - bot a) (right a - left a)). assert (B := Rmax_r (top a - bot a) (right a - left a)). unfold moved. cbn [bot top left right]. lra. }
    unfold estimate_scan.
    match goal with |- context[estimate_loop ?w ?pr 0 pts] => set (P1 := pr) end.
    match goal with |- context[estimate_loop ?w ?pr 0 pts] => match pr with P1 => fail 1 | _ => set (P2 := pr) end end.
    assert (PP : forall sp, In sp pts -> sp_factor sp = EFin 1 /\ exists a a', P1 sp = Ok (EFin a) /\ P2 sp = Ok (EFin a') /\ 0 <= a <= 1 /\ 0 <= a' <= 1 /\ a' <= a + INR K * (1 / 10000000)).
    { intros sp I. destruct (pts_ok sp I) as (x & y & o & -> & R1 & R2 & R3 & R4). split; [reflexivity|]. unfold P1, P2. rewrite !point_prob_E by (apply LE || apply LE').
      assert (Reach : forall a, sub a W -> bot a <= top a -> left a <= right a -> reaches (moved x y a)).
      { intros a (S1 & S2 & S3 & S4) L1 L2. unfold reaches, moved. cbn [bot top left right]. repeat split.
        - apply (reach_between (y + ry + bot W) (y + ry + top W)); auto; lra.
        - apply (reach_between (y + ry + bot W) (y + ry + top W)); auto; lra.
        - apply (reach_between (x + rx + left W) (x + rx + right W)); auto; lra.
        - apply (reach_between (x + rx + left W) (x + rx + right W)); auto; lra. }
      assert (Bx : forall a, boxed a -> boxed (moved x y a)) by (intros a [H|H]; [left|right]; unfold moved; cbn [bot top left right]; lra).
      assert (SW' : sub r' W) by (unfold sub in *; lra).
      destruct (max_pe_E fuel k l (moved x y r) fuel_ok (proj2 sh _ _ N) (Bx r Br) (Reach r SW (proj1 LE) (proj2 LE)) (Fit r k l (proj1 LE) (proj2 LE) N T1 x y)) as (a & Ea & Ma).
      destruct (max_pe_E fuel k' l' (moved x y r') fuel_ok (proj2 sh _ _ N') (Bx r' Br') (Reach r' SW' (proj1 LE') (proj2 LE')) (Fit r' k' l' (proj1 LE') (proj2 LE') N' T1' x y)) as (a' & Ea' & Ma').
      exists a, a'. rewrite Ea, Ea'. split; [reflexivity|]. split; [reflexivity|]. split; [apply Ma|]. split; [apply Ma'|].
      apply (area_max_le k' k l' l (moved x y r) (moved x y r')); auto. unfold sub, moved in *. cbn [bot top left right]. lra. }
    destruct (estimate_loop_pair (weight pts) P1 P2 (INR K * (1 / 10000000)) pts 0 PP weights_ok 0 0 0) as (tot & tot' & w & E1 & E2 & _ & B1 & B2 & M & Po).
    specialize (Po weights_pos). cbn [dofZ EOps]. rewrite E1, E2. cbn [bind deq EOps E_eq]. rewrite !Rplus_0_l.
    replace (R_eq w 0) with false by (symmetry; apply R_eq_false; lra). rewrite !E_div_fin by lra.
    exists (tot / w), (tot' / w). split; [reflexivity|]. split; [reflexivity|].
    assert (I : 0 < / w) by (apply Rinv_0_lt_compat; exact Po). assert (WI : w * / w = 1) by (apply Rinv_r; lra). unfold Rdiv. repeat split.
    - apply Rmult_le_pos; lra.
    - rewrite <- WI. apply Rmult_le_compat_r; lra.
    - apply Rmult_le_pos; lra.
    - rewrite <- WI. apply Rmult_le_compat_r; lra.
    - apply (Rmult_le_compat_r (/ w)) in M; [|lra]. rewrite Rmult_plus_distr_r, Rmult_assoc, WI in M. lra.
  Qed.
End Score.

(** ** the search *)
Definition real_prob (o : outcome (option ER)) : R := match o with Ok (Some (EFin v)) => v | _ => 0 end.
Definition wide (r : rect R) : Prop := bot r < top r /\ left r < right r.
Lemma part_sub step r c : wide r -> part step r c -> wide c /\ sub c r.
Proof.
  intros [H1 H2] P. destruct P; unfold wide, sub, left_half, right_half, lower_half, upper_half, mid; cbn [bot top left right]; lra.
Qed.
Lemma range_sub step w r : wide w -> range_of step w r -> wide r /\ sub r w.
Proof.
  intros Hw. induction 1 as [|r c _ IH P]; [split; [exact Hw|unfold sub; lra]|]. destruct IH as [A B]. destruct (part_sub step r c A P) as [A' B']. split; [exact A'|]. unfold sub in *. lra.
Qed.
Lemma leaf_sub step r l : wide r -> leaf_of step r l -> wide l /\ sub l r.
Proof.
  intros Hr H. induction H as [r H|r c l P _ IH]; [split; [exact Hr|unfold sub; lra]|]. destruct (part_sub step r c Hr P) as [A B]. destruct (IH A) as [A' B']. split; [exact A'|]. unfold sub in *. lra.
Qed.
Lemma tried_sub l x y : wide l -> tried_in l x y -> sub (point_range x y) l.
Proof.
  intros [H1 H2] T. unfold sub, point_range. cbn [bot top left right]. destruct T as [[[->| ->] [->| ->]]|[-> ->]]; unfold mid; lra.
Qed.
Lemma candidate_sub step max_x max_y x y : 0 < max_x -> 0 < max_y -> candidate step (mkRect (- max_y) max_y (- max_x) max_x) x y -> sub (point_range x y) (mkRect (- max_y) max_y (- max_x) max_x).
Proof.
  intros Hx Hy. set (w := mkRect (- max_y) max_y (- max_x) max_x). assert (Ww : wide w) by (unfold wide, w; cbn; lra). intros [[-> ->]|(l & L & T)].
  - unfold sub, point_range, w. cbn. lra.
  - destruct (leaf_sub step w l Ww L) as [A B]. assert (X := tried_sub l x y A T). unfold sub in *. lra.
Qed.

Section Search.
  Context {C : Type}.
  Variables (dcos dsin : ER -> ER) (datan2 : ER -> ER -> ER).
  Variables (proto : C) (impact : C -> ER) (s : R) (K : nat) (p : pyramid ER C).
  Hypothesis s_pos : 0 < s.
  Hypothesis K_pos : (1 <= K)%nat.
  Hypothesis K_le : (K <= 100)%nat.
  Hypothesis sh : shaped s K (py_levels p).
  Hypothesis co : cont (py_levels p).
  Hypothesis unit : forall x, exists r, impact x = EFin r /\ 0 <= r <= 1.
  Hypothesis cov : forall i j li lj f c, (i < j)%nat -> nth_error (py_levels p) i = Some li -> nth_error (py_levels p) j = Some lj ->
    covers (lv_scale li) (lv_scale lj) f c -> impact_le (j - i) (impact (lv_cells li f)) (impact (lv_cells lj c)).
  Variables (weight : list (scan_point ER) -> Z -> outcome ER) (fuel : nat) (rx ry : R) (rth : ER) (scan : R -> list (scan_point ER)) (max_x max_y step : R).
  Hypothesis fuel_ok : (4 <= fuel)%nat.
  Hypothesis window_ok : 0 < max_x /\ 0 < max_y.
  Hypothesis pts_ok : forall rot q, In q (scan rot) -> exists x y o, q = sp_make_cartesian (EFin x, EFin y) o /\
    Rabs (x + rx) + max_x <= s * IZR (2 ^ 30) /\ Rabs (y + ry) + max_y <= s * IZR (2 ^ 30).
  Hypothesis weights_ok : forall rot k, (k < length (scan rot))%nat -> exists w, weight (scan rot) (Z.of_nat k) = Ok (EFin w) /\ 0 <= w.
  Hypothesis weights_pos : forall rot, exists k w, (k < length (scan rot))%nat /\ weight (scan rot) (Z.of_nat k) = Ok (EFin w) /\ 0 < w.
  Local Notation w := (mkRect (- max_y) max_y (- max_x) max_x).
  Local Notation prob rot r := (match_prob dcos dsin datan2 proto impact weight fuel p (mkPose (EFin rx) (EFin ry) rth) (scan rot) (er r)).
  Definition score_of (rot : R) (r : rect R) : R := real_prob (prob rot r).

  Lemma w_wide : wide w.
  Proof. unfold wide. cbn. lra. Qed.
  Lemma pair rot r r' : sub r w -> sub r' r -> boxed r -> boxed r' ->
    prob rot r = Ok (Some (EFin (score_of rot r))) /\ 0 <= score_of rot r <= 1 /\ score_of rot r' <= score_of rot r + INR K * (1 / 10000000).
  Proof.
    intros H1 H2 H3 H4. destruct (prob_pair dcos dsin datan2 proto impact s K p s_pos K_pos sh co unit cov weight fuel rx ry rth (scan rot) w fuel_ok) with (r := r) (r' := r') as (v & v' & E & E' & B & _ & M); auto.
    - intros q I. destruct (pts_ok rot q I) as (x & y & o & E & B1 & B2). exists x, y, o. split; [exact E|]. cbn [bot top left right]. unfold reach.
      assert (forall a b, - b <= a <= b -> Rabs a <= b) by (intros; now apply Rabs_le). assert (A1 := Rabs_le_inv _ _ (Rle_refl (Rabs (x + rx)))). assert (A2 := Rabs_le_inv _ _ (Rle_refl (Rabs (y + ry)))).
      repeat split; apply H; lra.
    - unfold prob_of in E, E'. unfold score_of. rewrite E, E'. cbn [real_prob]. auto.
  Qed.
  Lemma wide_boxed r : wide r -> boxed r.
  Proof. intros [A B]. left. auto. Qed.
  Lemma point_boxed x y : boxed (point_range x y).
  Proof. right. auto. Qed.
  Lemma sub_refl r : sub r r.
  Proof. unfold sub. lra. Qed.
  Lemma slack_le : INR K * (1 / 10000000) <= 1 / 100000.
  Proof. assert (X : INR K <= INR 100) by (apply le_INR; exact K_le). rewrite (INR_IZR_INZ 100) in X. cbn [Z.of_nat Pos.of_succ_nat Pos.succ] in X. lra. Qed.
  Lemma score_defined rot r : scored_range step w r -> prob rot r = Ok (Some (EFin (score_of rot r))) /\ 0 <= score_of rot r <= 1.
  Proof.
    assert (Ww := w_wide). intros [Rn|(x & y & Cd & ->)].
    - destruct (range_sub step w r Ww Rn) as [A B]. destruct (pair rot r r B (sub_refl r) (wide_boxed r A) (wide_boxed r A)) as (E & B' & _). auto.
    - destruct (pair rot (point_range x y) (point_range x y) (candidate_sub step max_x max_y x y (proj1 window_ok) (proj2 window_ok) Cd) (sub_refl _) (point_boxed x y) (point_boxed x y)) as (E & B' & _). auto.
  Qed.
  Lemma score_admissible : admissible_upto step (INR K * (1 / 10000000)) w score_of.
  Proof.
    assert (Ww := w_wide). split.
    - intros rot r c Rn P. destruct (range_sub step w r Ww Rn) as [A B]. destruct (part_sub step r c A P) as [A' B'].
      destruct (pair rot r c B B' (wide_boxed r A) (wide_boxed c A')) as (_ & _ & M). assert (X := slack_le). lra.
    - intros rot r l x y Rn L T. destruct (range_sub step w r Ww Rn) as [A B]. destruct (leaf_sub step r l A L) as [A' B']. assert (Sp := tried_sub l x y A' T).
      assert (Sr : sub (point_range x y) r) by (unfold sub in *; lra). destruct (pair rot r (point_range x y) B Sr (wide_boxed r A) (point_boxed x y)) as (_ & _ & M). exact M.
  Qed.
End Search.
