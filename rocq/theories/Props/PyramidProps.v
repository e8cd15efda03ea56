(** C31-C33: multi-resolution maps. *)
From Coq Require Import Reals ZArith List Lia Lra Bool.
From Flocq Require Import Core.
From Verif.Base Require Import Outcome Num OrdLaws EReal.
From Verif.Model Require Import MathUtils Geometry Grid PlainMap Cells Histogram Pyramid.
From Verif.Spec Require Import PyramidSpec.
From Verif.Proofs Require Import GridProofs HistProofs PyramidProofs PyramidShape PyramidRun PyramidBound.
Import ListNotations.
Local Open Scope Z_scope.

(** ** C31 *)
(** Any cell type with any impact in [-1, 1] (exact arithmetic), levels whose size does not change, a history of writes that
    leave the written cell known: at any two levels, the coarser cell covering a known finer cell is known, and its impact is
    at least the finer cell's up to one comparison tolerance (1e-7) per level between them. *)
Theorem C31_known_cells_are_bounded_partial :
  forall (C : Type) (proto : C) (grow : Z -> Z -> coord -> coord -> Z * Z * coord) (impact : C -> ER) (is_unknown : C -> bool) (s : R),
  (1 / 1000000000 < s)%R -> (forall x, exists r, impact x = EFin r /\ (Rabs r <= 1)%R) -> is_unknown proto = true ->
  (forall w h o c, grow w h o c = (w, h, o)) ->
  forall w h p0 (hist : list (coord * (C -> C))) fuel p, 1 <= w -> 1 <= h -> pyramid_new proto (EInf false) w h (EFin s) = Ok p0 ->
  (forall c f, In (c, f) hist -> forall x, is_unknown (f x) = false) ->
  m3_run proto grow impact is_unknown fuel p0 hist = Ok p ->
  forall i j fine coarse f c, (i < j)%nat -> nth_error (py_levels p) i = Some fine -> nth_error (py_levels p) j = Some coarse ->
  covers (lv_scale fine) (lv_scale coarse) f c -> is_unknown (lv_cells fine f) = false ->
  is_unknown (lv_cells coarse c) = false /\ impact_le (j - i) (impact (lv_cells fine f)) (impact (lv_cells coarse c)).
Proof. intros C proto grow impact is_unknown s Hs U PU Fx w h p0 hist fuel p Hw Hh E0 Kh E i j fine coarse f c. now apply (fixed_bound proto grow impact is_unknown s Hs U PU Fx w h p0 hist fuel p). Qed.
Print Assumptions C31_known_cells_are_bounded_partial.

(** Such histories exist: for a map of any size up to 2^30 x 2^30, any writes to cells of the finest level succeed, the levels
    keep their sizes and scales, and every finest cell has, at each level, a covering cell that this level contains. *)
Theorem C31_writes_inside_the_map_succeed :
  forall (C : Type) (proto : C) (grow : Z -> Z -> coord -> coord -> Z * Z * coord) (impact : C -> ER) (is_unknown : C -> bool) (s : R),
  (1 / 1000000000 < s)%R -> (forall w h o c, grow w h o c = (w, h, o)) ->
  forall w h, 1 <= w <= 2 ^ 30 -> 1 <= h <= 2 ^ 30 ->
  exists p0, pyramid_new proto (EInf false) w h (EFin s) = Ok p0 /\
    forall finest hist, nth_error (py_levels p0) 0 = Some finest -> (forall c f, In (c, f) hist -> level_has finest c) ->
    exists p, m3_run proto grow impact is_unknown 64 p0 hist = Ok p /\ length (py_levels p) = length (py_levels p0) /\ py_active p = O /\
      forall j l, nth_error (py_levels p) j = Some l -> forall c, level_has finest c -> exists cc, covers (EFin s) (lv_scale l) c cc /\ level_has l cc.
Proof.
  intros C proto grow impact is_unknown s Hs Fx w h Hw Hh. destruct (new_total proto s w h Hw Hh) as [p0 E0]. exists p0. split; [exact E0|].
  assert (W1 : 1 <= w) by lia. assert (H1 : 1 <= h) by lia. destruct (new_inside proto s w h p0 W1 H1 E0) as (K & HK & Sh & Co & A0 & KB & In0).
  intros finest hist N0 Hin.
  assert (Dim : lv_w finest = w /\ lv_h finest = h /\ lv_origin finest = default_origin w h).
  { unfold pyramid_new in E0. apply bind_Ok_inv in E0 as (ls & E1 & E0). injection E0 as <-. cbn [py_levels] in N0. unfold ensure_continuous in E1. cbn [length Nat.ltb Nat.leb Nat.sub nth_error] in E1.
    destruct (_ && _) in E1; [injection E1 as <-; cbn in N0; injection N0 as <-; auto|]. apply bind_Ok_inv in E1 as (a & _ & E1). apply bind_Ok_inv in E1 as (b & _ & E1). apply bind_Ok_inv in E1 as (l & _ & E1).
    injection E1 as <-. cbn in N0. injection N0 as <-. auto. }
  assert (InInt : forall c, level_has finest c -> in_int (cx c) = true /\ in_int (cy c) = true).
  { intros c [A B]. destruct Dim as (D1 & D2 & D3). rewrite D1, D3 in A. rewrite D2, D3 in B. cbn [default_origin cx cy fst snd] in A, B. rewrite Z.quot_div_nonneg in A, B by lia.
    assert (0 <= w / 2 <= w) by (split; [apply Z.div_pos; lia|apply Z.div_le_upper_bound; lia]). assert (0 <= h / 2 <= h) by (split; [apply Z.div_pos; lia|apply Z.div_le_upper_bound; lia]).
    unfold in_int, int_min, int_max. split; apply andb_true_iff; split; apply Z.leb_le; unfold cx, cy in *; lia. }
  destruct (m3_run_total proto grow impact is_unknown s Hs Fx K 64 hist HK) with (p := p0) as (p & E & Dp & Ap); auto; [lia|intros c f I; apply InInt; eapply Hin; eauto|].
  exists p. split; [exact E|]. split; [rewrite <- (map_length (fun l => (lv_w l, lv_h l, lv_origin l, lv_scale l)) (py_levels p)); change (length (dims (py_levels p)) = length (py_levels p0)); rewrite Dp; apply map_length|].
  split; [exact Ap|]. intros j l Nj c Hc. assert (Sh' := shaped_dims s K _ _ Dp Sh). assert (Hj : (j <= K)%nat) by (assert (j < length (py_levels p))%nat by (apply nth_error_Some; congruence); destruct Sh' as [Len _]; lia).
  exists (par K j c). rewrite (proj2 Sh' _ _ Nj). split; [apply par_covers; auto; lra|].
  assert (X := map_nth_error (fun l => (lv_w l, lv_h l, lv_origin l, lv_scale l)) _ _ Nj). change (nth_error (dims (py_levels p)) j = Some (lv_w l, lv_h l, lv_origin l, lv_scale l)) in X. rewrite Dp in X. unfold dims in X. rewrite nth_error_map in X.
  destruct (nth_error (py_levels p0) j) as [l0|] eqn:Nj0; [|discriminate]. cbn in X. injection X as X1 X2 X3 _. assert (Y := In0 finest j l0 c N0 Nj0 Hc).
  unfold level_has in *. rewrite <- X1, <- X2, <- X3. exact Y.
Qed.
Print Assumptions C31_writes_inside_the_map_succeed.

(** a case of both: three-valued cells (unknown, free, occupied), an 8x8 map, three writes; the cell covering the occupied one at
    each coarser level is known, with an impact of 1 up to the tolerance *)
Example C31_a_case :
  let impact (x : option bool) : ER := match x with None => EFin (1 / 2) | Some b => EFin (if b then 1 else 0) end in
  let unknown (x : option bool) := match x with None => true | _ => false end in
  let hist : list (coord * (option bool -> option bool)) := [((3, -2), fun _ => Some true); ((2, -1), fun _ => Some false); ((-4, 3), fun _ => Some false)] in
  exists p0 p, pyramid_new None (EInf false) 8 8 (EFin (1 / 20)) = Ok p0 /\ m3_run None (fun w h o _ => (w, h, o)) impact unknown 64 p0 hist = Ok p /\
    forall j l c, (0 < j)%nat -> nth_error (py_levels p) j = Some l -> covers (EFin (1 / 20)) (lv_scale l) (3, -2) c ->
    (exists l0, nth_error (py_levels p) 0 = Some l0 /\ lv_scale l0 = EFin (1 / 20) /\ lv_cells l0 (3, -2) = Some true) -> unknown (lv_cells l c) = false.
Proof.
  intros impact unknown hist.
  destruct (C31_writes_inside_the_map_succeed (option bool) None (fun w h o _ => (w, h, o)) impact unknown (1 / 20)) with (w := 8) (h := 8) as (p0 & E0 & H); [lra|reflexivity|lia|lia|].
  exists p0. assert (N0 : exists l, nth_error (py_levels p0) 0 = Some l /\ lv_w l = 8 /\ lv_h l = 8 /\ lv_origin l = (4, 4)) by (vm_compute in E0; injection E0 as <-; eexists; repeat split; reflexivity).
  destruct N0 as (finest & N0 & W & Hh & O). destruct (H finest hist N0) as (p & E & _).
  { intros c f I. unfold level_has. rewrite W, Hh, O. destruct I as [I|[I|[I|[]]]]; injection I as <- _; cbn; lia. }
  exists p. split; [exact E0|]. split; [exact E|]. intros j l c Hj N Cv (l0 & Nl & Sc & V). rewrite <- Sc in Cv.
  refine (proj1 (C31_known_cells_are_bounded_partial (option bool) None _ impact unknown (1 / 20) _ _ eq_refl _ 8 8 p0 hist 64%nat p _ _ E0 _ E 0%nat j l0 l (3, -2) c Hj Nl N Cv _)); try lia; try lra.
  - intros [[]|]; eexists; (split; [reflexivity|]); apply Rabs_le; lra.
  - reflexivity.
  - intros c' f I x. destruct I as [I|[I|[I|[]]]]; injection I as _ <-; reflexivity.
  - now rewrite V.
Qed.

(** *** concrete maps in binary64 with the default (affine) cells and the occupancy impact *)
Definition f_inf : F64 := ddiv (dofZ 1) (dofZ 0).
Definition f_nan : F64 := ddiv (dofZ 0) (dofZ 0).
Definition obs (p : F64) : aoo F64 := mkAoo true (mkOcc p (dofZ 1)) (dofZ 0, dofZ 0) (dofZ 1).
Definition seen (p : F64) : gcell F64 -> gcell F64 := fun x => affine_upd x (obs p).
Definition no_growth (w h : Z) (o c : coord) : Z * Z * coord := (w, h, o).
Definition map_after (grow : Z -> Z -> coord -> coord -> Z * Z * coord) (w h : Z) (hist : list (coord * (gcell F64 -> gcell F64))) : outcome (pyramid F64 (gcell F64)) :=
  bind (pyramid_new affine_new f_inf w h (dofZ 1)) (fun p => m3_run affine_new grow c_prob c_unknown 64 p hist).
(** is the known cell [f] of the finest level bounded (up to one comparison tolerance) by the cell [c] of level [k]? *)
Definition bounded_at (p : pyramid F64 (gcell F64)) (k : nat) (f c : coord) : option bool :=
  match nth_error (py_levels p) 0, nth_error (py_levels p) k with
  | Some l0, Some l => if c_unknown (lv_cells l0 f) then None else Some (less_or_equal (c_prob (lv_cells l0 f)) (c_prob (lv_cells l c)))
  | _, _ => None
  end.
Definition check (o : outcome (pyramid F64 (gcell F64))) (t : pyramid F64 (gcell F64) -> bool) : bool := match o with Ok p => t p | _ => false end.

(** An observation without a valid occupancy (a NaN) leaves its cell unknown, but unknown cells are propagated too: the
    coarse cell becomes unknown, and the next valid observation lowers it below the other cells it covers. *)
Theorem C31_invalid_observation_breaks_the_bound_refuted :
  exists p, map_after no_growth 2 2 [((0, 0), seen (dlit 2 10)); ((-1, 0), seen f_nan); ((-1, 0), seen (dlit 1 10))] = Ok p /\
    bounded_at p 1 (0, 0) (0, 0) = Some false.
Proof.
  assert (H : check (map_after no_growth 2 2 [((0, 0), seen (dlit 2 10)); ((-1, 0), seen f_nan); ((-1, 0), seen (dlit 1 10))])
    (fun p => match bounded_at p 1 (0, 0) (0, 0) with Some false => true | _ => false end) = true) by (vm_compute; reflexivity).
  revert H. unfold check. destruct (map_after _ _ _ _) as [p| | |]; try discriminate. intros H. exists p. split; [reflexivity|]. destruct (bounded_at p 1 (0, 0) (0, 0)) as [[]|]; congruence.
Qed.
Print Assumptions C31_invalid_observation_breaks_the_bound_refuted.

(** Tolerances of the levels add up: after valid observations only, a cell exceeds the coarsest level by more than one
    tolerance (so validate() returns false). *)
Theorem C31_tolerances_add_up_refuted :
  exists p, map_after no_growth 4 4 [((0, 0), seen (dlit 1 2)); ((-1, -1), seen (dlit 50000009 100000000)); ((-2, -1), seen (dlit 50000018 100000000))] = Ok p /\
    bounded_at p 1 (-2, -1) (-1, -1) = Some true /\ bounded_at p 2 (-2, -1) (0, 0) = Some false.
Proof.
  assert (H : check (map_after no_growth 4 4 [((0, 0), seen (dlit 1 2)); ((-1, -1), seen (dlit 50000009 100000000)); ((-2, -1), seen (dlit 50000018 100000000))])
    (fun p => match bounded_at p 1 (-2, -1) (-1, -1), bounded_at p 2 (-2, -1) (0, 0) with Some true, Some false => true | _, _ => false end) = true) by (vm_compute; reflexivity).
  revert H. unfold check. destruct (map_after _ _ _ _) as [p| | |]; try discriminate. intros H. exists p. split; [reflexivity|].
  destruct (bounded_at p 1 _ _) as [[]|]; try discriminate; destruct (bounded_at p 2 _ _) as [[]|]; try discriminate; auto.
Qed.
Print Assumptions C31_tolerances_add_up_refuted.

(** ** C32 *)
(** Whatever the growth: the single cell of the coarsest level bounds every known cell of every level. *)
Theorem C32_coarsest_level_bounds_everything_partial :
  forall (C : Type) (proto : C) (grow : Z -> Z -> coord -> coord -> Z * Z * coord) (impact : C -> ER) (is_unknown : C -> bool) (s : R),
  (1 / 1000000000 < s)%R -> (forall x, exists r, impact x = EFin r /\ (Rabs r <= 1)%R) -> is_unknown proto = true ->
  (forall w h o c w' h' o', 1 <= w -> 1 <= h -> grow w h o c = (w', h', o') -> 1 <= w' /\ 1 <= h') ->
  forall w h p0 (hist : list (coord * (C -> C))) fuel p, 1 <= w -> 1 <= h -> pyramid_new proto (EInf false) w h (EFin s) = Ok p0 ->
  (forall c f, In (c, f) hist -> forall x, is_unknown (f x) = false) ->
  m3_run proto grow impact is_unknown fuel p0 hist = Ok p ->
  forall i fine coarsest f, (i < length (py_levels p) - 1)%nat -> nth_error (py_levels p) i = Some fine -> nth_error (py_levels p) (length (py_levels p) - 1) = Some coarsest ->
  is_unknown (lv_cells fine f) = false ->
  is_unknown (lv_cells coarsest (0, 0)) = false /\
  impact_le (length (py_levels p) - 1 - i) (impact (lv_cells fine f)) (impact (lv_cells coarsest (0, 0))).
Proof.
  intros C proto grow impact is_unknown s Hs U PU GP w h p0 hist fuel p Hw Hh E0 Kh E i fine coarsest f Hi Ni Nc Kf.
  destruct (coarsest_bound proto grow impact is_unknown s Hs U PU GP w h p0 hist fuel p Hw Hh E0 Kh E) as (K & Len & I). rewrite Len in *. replace (S K - 1)%nat with K in * by lia.
  exact (I i fine coarsest f Hi Ni Nc Kf).
Qed.
Print Assumptions C32_coarsest_level_bounds_everything_partial.

(** the growth of an unbounded plain map (C05-C07) *)
Definition plain_growth (w h : Z) (o c : coord) : Z * Z * coord :=
  match ensure_inside (D := F64) (mkPMap w h o (repeat (repeat tt (Z.to_nat w)) (Z.to_nat h)) tt) c with
  | Ok m => (p_w m, p_h m, p_origin m)
  | _ => (w, h, o)
  end.
(** A 2x2 map; the cell (0, 0) is written; then the map grows because (5, 5) is written: levels are added between the finest
    and the coarsest one, and they know nothing of (0, 0). *)
Theorem C32_growth_breaks_the_bound_refuted :
  exists p, map_after plain_growth 2 2 [((0, 0), seen (dlit 9 10)); ((5, 5), seen (dlit 1 10))] = Ok p /\
    length (py_levels p) = 5%nat /\ map (fun k => bounded_at p k (0, 0) (0, 0)) [1; 2; 3; 4]%nat = [Some false; Some false; Some false; Some true].
Proof.
  assert (H : check (map_after plain_growth 2 2 [((0, 0), seen (dlit 9 10)); ((5, 5), seen (dlit 1 10))])
    (fun p => Nat.eqb (length (py_levels p)) 5 && match bounded_at p 1 (0, 0) (0, 0), bounded_at p 2 (0, 0) (0, 0), bounded_at p 3 (0, 0) (0, 0), bounded_at p 4 (0, 0) (0, 0) with
                                                  | Some false, Some false, Some false, Some true => true | _, _, _, _ => false end) = true)
    by (vm_compute; reflexivity).
  revert H. unfold check. destruct (map_after _ _ _ _) as [p| | |]; try discriminate. intros H. apply andb_true_iff in H as [L H]. apply Nat.eqb_eq in L. exists p. split; [reflexivity|]. split; [exact L|].
  cbn [map]. destruct (bounded_at p 1 _ _) as [[]|]; try discriminate; destruct (bounded_at p 2 _ _) as [[]|]; try discriminate; destruct (bounded_at p 3 _ _) as [[]|]; try discriminate;
    destruct (bounded_at p 4 _ _) as [[]|]; try discriminate; reflexivity.
Qed.
Print Assumptions C32_growth_breaks_the_bound_refuted.

(** ** C33 *)
(** doubles of any kind: after a successful rescale the active level is the first one whose scale is not less than the target *)
Theorem C33_rescale_selects_the_finest_adequate_level :
  forall (D C : Type) (ops : DOps D) (proto : C) (p q : pyramid D C) (t : D), rescale proto p t = Ok q ->
  exists l, nth_error (py_levels q) (py_active q) = Some l /\ dle t (lv_scale l) = true /\
    forall j l', (j < py_active q)%nat -> nth_error (py_levels q) j = Some l' -> dle t (lv_scale l') = false.
Proof. intros D C ops proto p q t E. apply rescale_Ok in E as [_ H]. exact H. Qed.
Print Assumptions C33_rescale_selects_the_finest_adequate_level.

(** after any use of a map of any growth: scales strictly increase from the finest level's; only the last one is infinite *)
Theorem C33_scales_increase_strictly_up_to_infinity :
  forall (C : Type) (proto : C) grow (impact : C -> ER) is_unknown (s : R), (0 < s)%R ->
  (forall w h o c w' h' o', 1 <= w -> 1 <= h -> grow w h o c = (w', h', o') -> 1 <= w' /\ 1 <= h') ->
  forall w h p0 p, 1 <= w -> 1 <= h -> pyramid_new proto (EInf false) w h (EFin s) = Ok p0 -> uses proto grow impact is_unknown p0 p ->
  (py_active p < length (py_levels p))%nat /\
  (exists l, nth_error (py_levels p) 0 = Some l /\ lv_scale l = EFin s) /\
  (exists l, nth_error (py_levels p) (length (py_levels p) - 1) = Some l /\ lv_scale l = EInf false) /\
  (forall i j li lj, (i < j)%nat -> nth_error (py_levels p) i = Some li -> nth_error (py_levels p) j = Some lj -> dlt (lv_scale li) (lv_scale lj) = true) /\
  forall t, disnan t = false -> (forall l, In l (py_levels p) -> lv_w l <= 2 ^ 30 /\ lv_h l <= 2 ^ 30) -> exists q, rescale proto p t = Ok q.
Proof.
  intros C proto grow impact is_unknown s Hs GP w h p0 p Hw Hh E0 U.
  destruct (pyramid_new_good proto s w h p0 Hw Hh E0) as (K0 & G0 & _). destruct (uses_good proto grow impact is_unknown s GP p0 p U K0 G0) as (K & HK & G).
  assert (G' := G). destruct G as ((K1 & Len & Sh) & Sz & A). split; [lia|]. split; [|split; [|split]].
  - destruct (nth_error (py_levels p) 0) as [l|] eqn:N; [|apply nth_error_None in N; lia]. exists l. split; [reflexivity|]. rewrite (Sh _ _ N), scale_at_dbl. destruct (Nat.ltb_spec 0 K); [|lia]. now rewrite dbl_0.
  - rewrite Len. replace (S K - 1)%nat with K by lia. destruct (nth_error (py_levels p) K) as [l|] eqn:N; [|apply nth_error_None in N; lia]. exists l. split; [reflexivity|]. rewrite (Sh _ _ N), scale_at_dbl.
    destruct (Nat.ltb_spec K K); [lia|reflexivity].
  - intros i j li lj Hij Ni Nj. assert (j < length (py_levels p))%nat by (apply nth_error_Some; congruence). rewrite (Sh _ _ Ni), (Sh _ _ Nj). apply scale_at_lt; auto. lia.
  - intros t T Hm. destruct (ensure_total proto s K (py_levels p)) as [ls E]; [exact (proj1 G')|intros l I; destruct (Sz l I), (Hm l I); lia|].
    exact (rescale_total proto s K p t ls G' E T).
Qed.
Print Assumptions C33_scales_increase_strictly_up_to_infinity.

(** the scoped view: whatever is done with the map in the scope (nested scopes, writes that make it grow, added levels), the
    level active after the scope is the one active before it - the coarsest one if that was the coarsest one *)
Theorem C33_scope_restores_the_active_level :
  forall (C : Type) (proto : C) grow (impact : C -> ER) is_unknown (s : R), (0 < s)%R ->
  (forall w h o c w' h' o', 1 <= w -> 1 <= h -> grow w h o c = (w', h', o') -> 1 <= w' /\ 1 <= h') ->
  forall w h p0 p body b q, 1 <= w -> 1 <= h -> pyramid_new proto (EInf false) w h (EFin s) = Ok p0 -> uses proto grow impact is_unknown p0 p ->
  body p = Ok b -> uses proto grow impact is_unknown p b -> with_safe_rescaling proto p body = Ok q ->
  py_scale q = py_scale p /\
  if (py_active p =? length (py_levels p) - 1)%nat then py_active q = (length (py_levels q) - 1)%nat else py_active q = py_active p.
Proof.
  intros C proto grow impact is_unknown s Hs GP w h p0 p body b q Hw Hh E0 U B Ub E.
  destruct (pyramid_new_good proto s w h p0 Hw Hh E0) as (K0 & G0 & _). destruct (uses_good proto grow impact is_unknown s GP p0 p U K0 G0) as (K & HK & G).
  destruct (scope_restores proto grow impact is_unknown s Hs GP K p body b q G B Ub E) as (K' & HK' & G' & A').
  destruct G as ((K1 & Len & Sh) & Sz & A). destruct G' as ((K1' & Len' & Sh') & Sz' & _). rewrite Len, Len'. replace (S K - 1)%nat with K by lia. replace (S K' - 1)%nat with K' by lia. split.
  - unfold py_scale. destruct (nth_error (py_levels p) (py_active p)) as [l|] eqn:N; [|apply nth_error_None in N; lia].
    destruct (nth_error (py_levels q) (py_active q)) as [l'|] eqn:N'; [|apply nth_error_None in N'; rewrite A' in N'; destruct (Nat.ltb_spec (py_active p) K); lia].
    f_equal. rewrite (Sh _ _ N), (Sh' _ _ N'), A', !scale_at_dbl. destruct (Nat.ltb_spec (py_active p) K).
    + destruct (Nat.ltb_spec (py_active p) K'); [reflexivity|lia].
    + destruct (Nat.ltb_spec K' K'); [lia|reflexivity].
  - rewrite A'. destruct (Nat.eqb_spec (py_active p) K), (Nat.ltb_spec (py_active p) K); try lia; reflexivity.
Qed.
Print Assumptions C33_scope_restores_the_active_level.

(** a NaN target runs past the last level *)
Theorem C33_nan_target_is_undefined :
  forall (C : Type) (proto : C) (p : pyramid F64 C) ls (t : F64), ensure_continuous proto (py_levels p) = Ok ls -> disnan t = true -> rescale proto p t = UB.
Proof.
  intros C proto p ls t E T. unfold rescale. rewrite E. cbn [bind]. rewrite find_level_nan; [reflexivity|].
  intros x. destruct t; cbn in T; try discriminate. destruct x; reflexivity.
Qed.
Print Assumptions C33_nan_target_is_undefined.

(** a non-trivial case: an 8x8 map of doubles has the levels 1, 2, 4, infinity; target scales and the chosen levels *)
Example C33_levels_of_an_8x8_map :
  match pyramid_new (C := unit) tt f_inf 8 8 (dofZ 1) with
  | Ok p =>
      map (fun l => (lv_w l, lv_h l)) (py_levels p) = [(8, 8); (4, 4); (2, 2); (1, 1)] /\
      map (fun t => match rescale tt p t with Ok q => Some (py_active q) | _ => None end) [dofZ 0; dofZ 1; dlit 11 10; dofZ 2; dofZ 3; dofZ 4; dofZ 5; f_inf; f_nan]
      = [Some 0; Some 0; Some 1; Some 1; Some 2; Some 2; Some 3; Some 3; None]%nat
  | _ => False
  end.
Proof. vm_compute. split; reflexivity. Qed.
