(** C20, C21: adding laser scans to maps. *)
From Coq Require Import ZArith List Bool Lia Reals Lra.
From Flocq Require Import Core.
From Verif.Base Require Import Outcome Num F64Facts.
From Verif.Model Require Import MathUtils Geometry Grid PlainMap Cells Sensor ScanAdder.
From Verif.Spec Require Import GeometrySpec MapSpec ScanSpec.
From Verif.Proofs Require Import GridNumProofs PlainMapProofs ScanAdderProofs.
Import ListNotations.
Local Open Scope Z_scope.

(** C20.  [hist] is any history of an unbounded plain map; estimator, quality estimator and trigonometry are any
    functions.  [beam_in]: an in-range beam is finite and its end cells are within the bound B.  [scan_obs ... c] lists, for
    every scan point in order, the observation [seen_by] (Spec/ScanSpec.v) cell [c] gets from its beam; every cell of the
    map ends up as its old value updated with exactly these.  The ray of a beam is a connected cell path. *)
Theorem C20_scan_updates_exactly_its_rays :
  forall (C : Type) (cell_upd : C -> aoo F64 -> C)
    (scale : F64) (est : segment F64 -> rect F64 -> bool -> occup F64) (qual : list (scan_point F64) -> Z -> F64)
    (max_range blur : F64) (datan2 tcos tsin : F64 -> F64 -> F64)
    (proto : C) (w h B : Z) (hist : list (map_op C (aoo F64))) (m0 : pmap C)
    (p : pose F64) (pts : list (scan_point F64)) (sq : F64),
  F_fin scale = true -> (0 < F2R64 scale <= bpow radix2 900)%R ->
  1 <= w -> 1 <= h -> 0 <= B -> 4 * B + 2 * Z.max w h < 2 ^ 31 ->
  (forall op, In op hist -> within B (w_coord (op_write op))) ->
  unb_run (ops := FOps) cell_upd (pmap_new proto w h) hist = Ok m0 ->
  Z.of_nat (length pts) < 2 ^ 52 ->
  (forall s, In s pts -> beam_in scale max_range B (sp_beam datan2 tcos tsin p s)) ->
  (forall s, In s pts -> let b := sp_beam datan2 tcos tsin p s in too_long max_range b = false ->
     cell_path (end_cell scale (sbeg b)) (end_cell scale (send b)) (ray_cells scale b)) /\
  exists m, append_scan (unb_update cell_upd) scale (est_o est) (qual_o qual) max_range blur datan2 (trig_o tcos tsin)
              m0 p pts sq (dofZ 0) = Ok m /\
    forall c, exists v, unb_get m0 c = Ok v /\
      unb_get m c = Ok (fold_left cell_upd (scan_obs scale est qual max_range blur datan2 tcos tsin p sq 0 pts c) v).
Proof.
  intros C cell_upd scale est qual max_range blur datan2 tcos tsin proto w h B hist m0 p pts sq Fs Hs Hw Hh HB HM Hh' E0 Hl Hb.
  split.
  - intros s Hin b HT. destruct (beam_in_path scale max_range Fs Hs B b (Hb s Hin) HT) as (a & e & l & Ea & Ee & El & HP & _).
    unfold end_cell, ray_cells. rewrite Ea, Ee, El. exact HP.
  - destruct pts as [|s0 pts0].
    + exists m0. split; [reflexivity|]. intros c.
      destruct (unbounded_plain_refines cell_upd proto w h B hist Hw Hh HB HM Hh') as (m0' & E0' & HR0 & _).
      rewrite E0 in E0'. injection E0' as <-. eexists. split; apply HR0.
    + apply (append_scan_F64 cell_upd scale est qual max_range blur datan2 tcos tsin Fs Hs proto w h B hist m0 p (s0 :: pts0) sq 0); auto.
      cbn [length]. lia.
Qed.
Print Assumptions C20_scan_updates_exactly_its_rays.

(** the frame condition: a cell on no in-range ray keeps its value (for any cell type, also for a wrong estimate) *)
Theorem C20_other_cells_unchanged :
  forall (scale : F64) est qual (max_range blur : F64) (datan2 tcos tsin : F64 -> F64 -> F64) p sq k pts c,
  (forall s, In s pts -> let b := sp_beam datan2 tcos tsin p s in
     too_long max_range b = true \/ (c <> end_cell scale (send b) /\ ~ In c (ray_cells scale b))) ->
  scan_obs scale est qual max_range blur datan2 tcos tsin p sq k pts c = [].
Proof.
  intros scale est qual max_range blur datan2 tcos tsin p sq k pts c H. unfold scan_obs.
  assert (HI : forall ip, In ip (numbered k pts) -> In (snd ip) pts).
  { intros [i s] Hin. apply in_combine_r in Hin. cbn [snd]. rewrite <- (firstn_skipn k pts). apply in_or_app. right.
    rewrite <- (firstn_skipn (length pts - 2 * k) (skipn k pts)). apply in_or_app. now left. }
  induction (numbered k pts) as [|ip l IH]; [reflexivity|]. cbn [flat_map].
  rewrite IH by (intros; apply HI; now right). rewrite app_nil_r.
  unfold seen_by. destruct (H _ (HI ip (or_introl eq_refl))) as [->|[H1 H2]]; [reflexivity|].
  destruct (too_long _ _); [reflexivity|].
  destruct (coord_eq_dec c _); [contradiction|]. destruct (in_dec coord_eq_dec c _); [contradiction|reflexivity].
Qed.
Print Assumptions C20_other_cells_unchanged.

(** the cell of a point that hit something is told so; a cell passed by a beam is told it is free when blurring is off *)
Theorem C20_passed_cells_are_observed_free_without_blur :
  forall (scale : R) est b is_occ q s e c, (0 < scale)%R ->
  pass_obs scale est 0%R b is_occ q s e c = mkAoo false (est b (cell_rect scale c) false) (send b) q.
Proof.
  intros scale est b is_occ q s e c Hs. unfold pass_obs.
  assert (E : blur_radius scale 0%R b is_occ = 0%R).
  { unfold blur_radius. destruct is_occ; [|reflexivity]. cbn. unfold Rdiv. rewrite Rmult_0_l.
    destruct (R_lt 0 0) eqn:E; [apply R_lt_true in E; lra|reflexivity]. }
  rewrite E. cbv zeta. replace (dlt (cells_sq c e) (dmul 0%R 0%R)) with false; [reflexivity|]. symmetry.
  unfold cells_sq. cbn [dlt dmul dadd dofZ ROps]. apply R_lt_false. rewrite Rmult_0_l. nra.
Qed.
Print Assumptions C20_passed_cells_are_observed_free_without_blur.

(** with blurring, a passed cell gets at most the wall's probability, and a free beam is never blurred *)
Theorem C20_blurring_decreases_with_distance :
  forall (scale : R) est blur b q s e c c', (0 < scale)%R ->
  (0 <= prob_occ (est b (cell_rect scale e) true))%R -> c <> e -> c' <> e ->
  a_is_occ (pass_obs scale est blur b true q s e c) = true -> a_is_occ (pass_obs scale est blur b true q s e c') = true ->
  (cells_sq c e <= cells_sq c' e)%R ->
  (0 <= prob_occ (a_occ (pass_obs scale est blur b true q s e c')) <= prob_occ (a_occ (pass_obs scale est blur b true q s e c)))%R
  /\ (prob_occ (a_occ (pass_obs scale est blur b true q s e c)) <= prob_occ (est b (cell_rect scale e) true))%R.
Proof.
  intros scale est blur b q s e c c' Hs Hp Hc Hc' H H' Hle. unfold pass_obs in *.
  set (r2 := dmul _ _) in *. set (P := prob_occ (est b (cell_rect scale e) true)) in *.
  destruct (dlt (cells_sq c e) r2 && dlt r2 (cells_sq s e))%bool eqn:E; [|discriminate H].
  destruct (dlt (cells_sq c' e) r2 && dlt r2 (cells_sq s e))%bool eqn:E'; [|discriminate H'].
  apply andb_prop in E, E'. destruct E as [E _], E' as [E' _]. cbn [dlt ROps] in E, E'.
  apply R_lt_true in E, E'. cbn [a_occ prob_occ]. cbn [dmul dsub ddiv dofZ ROps].
  assert (Z0 : forall x, (0 <= cells_sq (D := R) x e)%R) by (intros x; unfold cells_sq; cbn; nra).
  assert (H0 := Z0 c). assert (H0' := Z0 c').
  set (x := cells_sq c e) in *. set (y := cells_sq c' e) in *.
  assert (Hr : (0 < r2)%R) by lra.
  assert (Hx : (0 <= x / r2)%R) by (apply Rle_mult_inv_pos; lra).
  assert (Hxy : (x / r2 <= y / r2)%R) by (apply Rmult_le_compat_r; [left; apply Rinv_0_lt_compat; lra|lra]).
  assert (Hy1 : (y / r2 < 1)%R) by (apply Rmult_lt_reg_r with r2; [lra|]; unfold Rdiv; rewrite Rmult_assoc, Rinv_l by lra; lra).
  split; [split|].
  - apply Rmult_le_pos; lra.
  - apply Rmult_le_compat_l; lra.
  - rewrite <- (Rmult_1_r P) at 2. apply Rmult_le_compat_l; lra.
Qed.
Print Assumptions C20_blurring_decreases_with_distance.

(** C21.  A margin [k] smaller than the number of points: exactly the points k .. n-1-k are used (their numbers are
    [seq k (n - 2k)], none if n <= 2k), whatever the map; no index outside of the scan is read. *)
Theorem C21_margin_trims_partial :
  forall (C : Type) (cell_upd : C -> aoo F64 -> C)
    (scale : F64) (est : segment F64 -> rect F64 -> bool -> occup F64) (qual : list (scan_point F64) -> Z -> F64)
    (max_range blur : F64) (datan2 tcos tsin : F64 -> F64 -> F64)
    (proto : C) (w h B : Z) (hist : list (map_op C (aoo F64))) (m0 : pmap C)
    (p : pose F64) (pts : list (scan_point F64)) (sq : F64) (k : nat),
  F_fin scale = true -> (0 < F2R64 scale <= bpow radix2 900)%R ->
  1 <= w -> 1 <= h -> 0 <= B -> 4 * B + 2 * Z.max w h < 2 ^ 31 ->
  (forall op, In op hist -> within B (w_coord (op_write op))) ->
  unb_run (ops := FOps) cell_upd (pmap_new proto w h) hist = Ok m0 ->
  Z.of_nat (length pts) < 2 ^ 52 -> (k < length pts)%nat ->
  (forall s, In s pts -> beam_in scale max_range B (sp_beam datan2 tcos tsin p s)) ->
  exists m, append_scan (unb_update cell_upd) scale (est_o est) (qual_o qual) max_range blur datan2 (trig_o tcos tsin)
              m0 p pts sq (dofZ (Z.of_nat k)) = Ok m /\
    forall c, exists v, unb_get m0 c = Ok v /\
      unb_get m c = Ok (fold_left cell_upd
        (flat_map (fun i => match nth_error pts i with
                            | Some s => let b := sp_beam datan2 tcos tsin p s in
                                seen_by scale est max_range blur b (sp_occ s) (dmul sq (qual pts (Z.of_nat i)))
                                  (end_cell scale (sbeg b)) (end_cell scale (send b)) (ray_cells scale b) c
                            | None => [] end) (seq k (length pts - 2 * k))) v).
Proof.
  intros C cell_upd scale est qual max_range blur datan2 tcos tsin proto w h B hist m0 p pts sq k Fs Hs Hw Hh HB HM Hh' E0 Hl Hk Hb.
  destruct (append_scan_F64 cell_upd scale est qual max_range blur datan2 tcos tsin Fs Hs proto w h B hist m0 p pts sq k
              Hw Hh HB HM Hh' E0 Hl Hk Hb) as (m & E & HR).
  exists m. split; [exact E|]. intros c. destruct (HR c) as (v & E1 & E2). exists v. split; [exact E1|].
  rewrite E2. do 2 f_equal. unfold scan_obs, numbered.
  assert (K : forall n j l, (forall i, (i < n)%nat -> nth_error pts (j + i) = nth_error l i) -> (n <= length l)%nat ->
     flat_map (fun ip => let b := sp_beam datan2 tcos tsin p (snd ip) in
                seen_by scale est max_range blur b (sp_occ (snd ip)) (dmul sq (qual pts (Z.of_nat (fst ip))))
                  (end_cell scale (sbeg b)) (end_cell scale (send b)) (ray_cells scale b) c) (combine (seq j n) l)
     = flat_map (fun i => match nth_error pts i with
                            | Some s => let b := sp_beam datan2 tcos tsin p s in
                                seen_by scale est max_range blur b (sp_occ s) (dmul sq (qual pts (Z.of_nat i)))
                                  (end_cell scale (sbeg b)) (end_cell scale (send b)) (ray_cells scale b) c
                            | None => [] end) (seq j n)).
  { cbv zeta. induction n as [|n IH]; intros j l Hn Hl'; [reflexivity|]. destruct l as [|s l]; [cbn in Hl'; lia|].
    cbn [seq combine flat_map fst snd]. rewrite (IH (S j) l).
    - assert (H0 := Hn 0%nat ltac:(lia)). rewrite Nat.add_0_r in H0. cbn in H0. rewrite H0. reflexivity.
    - intros i Hi. replace (S j + i)%nat with (j + S i)%nat by lia. rewrite Hn by lia. reflexivity.
    - cbn in Hl'. lia. }
  apply K.
  - intros i Hi. rewrite <- (firstn_skipn k pts) at 1. rewrite nth_error_app2 by (rewrite firstn_length; lia).
    rewrite firstn_length, Nat.min_l by lia. replace (k + i - k)%nat with i by lia.
    rewrite <- (firstn_skipn (length pts - 2 * k) (skipn k pts)) at 1.
    rewrite nth_error_app1; [reflexivity|]. rewrite firstn_length, skipn_length. lia.
  - rewrite firstn_length, skipn_length. lia.
Qed.
Print Assumptions C21_margin_trims_partial.

(** a margin of at least the number of points is not "ignore everything": the last index underflows *)
Theorem C21_any_margin_refuted :
  forall (M : Type) (upd : M -> coord -> aoo F64 -> outcome M) (scale : F64) est qual (max_range blur : F64)
    (datan2 tcos tsin : F64 -> F64 -> F64) m p pts sq (k : Z),
  pts <> [] -> Z.of_nat (length pts) < 2 ^ 52 -> Z.of_nat (length pts) <= k < 2 ^ 52 ->
  append_scan upd scale (est_o est) (qual_o qual) max_range blur datan2 (trig_o tcos tsin) m p pts sq (dofZ k) = UB.
Proof. intros M upd scale est qual max_range blur datan2 tcos tsin m p pts sq k. apply append_margin_ub. Qed.
Print Assumptions C21_any_margin_refuted.

(** a concrete scan of three beams (right 2.1 m occupied; up 100 m, out of range; left 1 m free) in a 0.5 m grid: the
    observations are collected per cell *)
Definition sc_tcos (b a : F64) : F64 := if deq a (dofZ 0) then dofZ 1 else if deq a (dofZ 1) then dofZ 0 else dofZ (-1).
Definition sc_tsin (b a : F64) : F64 := if deq a (dofZ 1) then dofZ 1 else dofZ 0.
Definition sc_pts : list (scan_point F64) :=
  [sp_make_polar (dlit 21 10) (dofZ 0) true; sp_make_polar (dofZ 100) (dofZ 1) true; sp_make_polar (dofZ 1) (dofZ 2) false].
Definition sc_pose : pose F64 := mkPose (dlit 1 4) (dlit 1 4) (dofZ 0).
Definition sc_upd (c : list bool) (a : aoo F64) : list bool := a_is_occ a :: c.
Definition sc_est (b : segment F64) (r : rect F64) (o : bool) : occup F64 := mkOcc (if o then dofZ 1 else dofZ 0) (dofZ 1).
Definition sc_run (k : Z) :=
  append_scan (unb_update (ops := FOps) sc_upd) (dlit 1 2) (est_o sc_est) (qual_o (fun _ _ => dofZ 1)) (dofZ 10) (dofZ 0)
    (fun _ x => x) (trig_o sc_tcos sc_tsin) (pmap_new [] 1 1) sc_pose sc_pts (dofZ 1) (dofZ k).
Example C20_case :
  match sc_run 0 with
  | Ok m => (unb_get m (4, 0), unb_get m (2, 0), unb_get m (0, 0), unb_get m (-2, 0), unb_get m (0, 3))
            = (Ok [true], Ok [false], Ok [false; false], Ok [false], Ok [])
  | _ => False
  end.
Proof. vm_compute. reflexivity. Qed.
Example C20_case_hyps : forall s, In s sc_pts -> beam_in (dlit 1 2) (dofZ 10) 4 (sp_beam (fun _ x => x) sc_tcos sc_tsin sc_pose s).
Proof.
  intros s Hin. cbn [In sc_pts] in Hin.
  destruct Hin as [<-|[<-|[<-|[]]]]; intros HT; [| vm_compute in HT; discriminate HT |];
  (split; [split; vm_compute; reflexivity|]; split; [split; vm_compute; reflexivity|];
   eexists; eexists; split; [vm_compute; reflexivity|]; split; [unfold within; cbn; lia|];
   split; [vm_compute; reflexivity|]; unfold within; cbn; lia).
Qed.
Example C21_case : match sc_run 1 with Ok m => (unb_get m (4, 0), unb_get m (0, 0)) = (Ok [], Ok []) | _ => False end
                   /\ sc_run 2 = Ok (pmap_new [] 1 1) /\ sc_run 3 = UB.
Proof. split; [vm_compute; reflexivity|]. split; vm_compute; reflexivity. Qed.
