(** A run moved by a whole number of cells. *)
From Coq Require Import ZArith List Bool Lia Reals Lra.
From Flocq Require Import Core.
From Verif.Base Require Import Outcome Num.
From Verif.Model Require Import MathUtils Geometry Grid Cells Sensor ScanAdder Matchers World WholeSlam Spe.
From Verif.Spec Require Import ShiftSpec.
Import ListNotations.
Local Open Scope Z_scope.
Local Open Scope outcome_scope.

Section Shift.
  Variables (scale : R) (s : coord).
  Hypothesis Hs : (0 < scale)%R.
  Notation mc := (moved_coord s). Notation mp := (moved_point scale s). Notation mseg := (moved_segment scale s).
  Notation mpose := (moved_pose scale s). Notation mobs := (moved_obs scale s). Notation mcell := (moved_cell scale s).
  Notation mrect := (moved_rect scale s). Notation mx := (moved_x scale s). Notation my := (moved_y scale s).

  Lemma mc_eqb a b : coord_eqb (mc a) (mc b) = coord_eqb a b.
  Proof using Type.
    unfold coord_eqb, moved_coord, cx, cy; cbn [fst snd].
    f_equal; apply eq_true_iff_eq; rewrite !Z.eqb_eq; lia.
  Qed.
  Lemma mc_inj a b : mc a = mc b -> a = b.
  Proof using Type. unfold moved_coord, cx, cy. destruct a, b; cbn. intros X. injection X as X Y. f_equal; lia. Qed.

  Lemma floor_shift x k : Zfloor ((x + IZR k * scale) / scale) = Zfloor (x / scale) + k.
  Proof using Hs.
    replace ((x + IZR k * scale) / scale)%R with (x / scale + IZR k)%R by (field; lra).
    apply Zfloor_imp. assert (A := Zfloor_lb (x / scale)). assert (B := Zfloor_ub (x / scale)). rewrite !plus_IZR. lra.
  Qed.
  Lemma w2cell_inv p c : world_to_cell scale p = Ok c -> c = (Zfloor (ptx p / scale), Zfloor (pty p / scale)).
  Proof using Type.
    unfold world_to_cell. cbn [dispinf ROps negb andb assert_ bind]. unfold floor_int, to_int. cbn [dfloor ROps ddiv].
    destruct (in_int (Zfloor (ptx p / scale))); cbn [bind]; [|discriminate].
    destruct (in_int (Zfloor (pty p / scale))); cbn [bind]; [|discriminate]. intros X. congruence.
  Qed.
  Lemma w2cell_shift p c c' : world_to_cell scale p = Ok c -> world_to_cell scale (mp p) = Ok c' -> c' = mc c.
  Proof using Hs.
    intros A B. apply w2cell_inv in A. apply w2cell_inv in B. subst. unfold moved_coord, moved_point, moved_x, moved_y, cx, cy, ptx, pty; cbn [fst snd].
    rewrite !floor_shift. reflexivity.
  Qed.

  Lemma bres_shift yp a b : forall fuel limit dp ds ip is_ prim sec err acc,
    bresenham_loop fuel yp (limit + a) dp ds ip is_ (prim + a) (sec + b) err (map (fun c => if yp then (fst c + b, snd c + a) else (fst c + a, snd c + b)) acc) =
    (l <- bresenham_loop fuel yp limit dp ds ip is_ prim sec err acc ;; Ok (map (fun c => if yp then (fst c + b, snd c + a) else (fst c + a, snd c + b)) l)).
  Proof using Type.
    induction fuel as [|fuel IH]; intros; [reflexivity|]. cbn [bresenham_loop].
    replace (prim + a =? limit + a) with (prim =? limit) by (apply eq_true_iff_eq; rewrite !Z.eqb_eq; lia).
    destruct (prim =? limit).
    - cbn [bind]. rewrite map_rev. cbn [map fst snd]. destruct yp; reflexivity.
    - replace (prim + a + ip) with (prim + ip + a) by lia. replace (sec + b + is_) with (sec + is_ + b) by lia.
      destruct (_ <? _); rewrite <- IH; cbn [map fst snd]; destruct yp; reflexivity.
  Qed.
  Lemma dseg_shift a b : discrete_segment (mc a) (mc b) = (l <- discrete_segment a b ;; Ok (map mc l)).
  Proof using Type.
    unfold discrete_segment, discrete_segment_fuel, coord_sub, moved_coord, cx, cy; cbn [fst snd].
    replace (fst b + fst s - (fst a + fst s)) with (fst b - fst a) by lia. replace (snd b + snd s - (snd a + snd s)) with (snd b - snd a) by lia.
    destruct (Z.abs (fst b - fst a) <? Z.abs (snd b - snd a)).
    - exact (bres_shift true (snd s) (fst s) _ (snd b) _ _ _ _ (snd a) (fst a) 0 []).
    - exact (bres_shift false (fst s) (snd s) _ (fst b) _ _ _ _ (fst a) (snd a) 0 []).
  Qed.

  Lemma w2c_loop_shift : forall fuel bc en nm ix iy ex ey pnt (e : R) n acc,
    w2c_loop fuel (mc bc) (mc en) nm ix iy ex ey (mc pnt) e n (map mc acc) =
    (l <- w2c_loop fuel bc en nm ix iy ex ey pnt e n acc ;; Ok (map mc l)).
  Proof using Type.
    induction fuel as [|fuel IH]; intros; [reflexivity|]. cbn [w2c_loop]. rewrite mc_eqb. destruct (coord_eqb pnt en).
    - cbn [bind]. rewrite map_rev. reflexivity.
    - destruct (nm <? n + 1); [apply dseg_shift|].
      change (mc pnt :: map mc acc) with (map mc (pnt :: acc)).
      assert (X : (cx (mc pnt) =? cx (mc en)) = (cx pnt =? cx en)) by (unfold moved_coord, cx; cbn; apply eq_true_iff_eq; rewrite !Z.eqb_eq; lia).
      assert (Y : (cy (mc pnt) =? cy (mc en)) = (cy pnt =? cy en)) by (unfold moved_coord, cy; cbn; apply eq_true_iff_eq; rewrite !Z.eqb_eq; lia).
      assert (M : forall a b, (cx (mc pnt) + a, cy (mc pnt) + b) = mc (cx pnt + a, cy pnt + b)) by (intros; unfold moved_coord, cx, cy; cbn; f_equal; lia).
      assert (M1 : forall a, (cx (mc pnt) + a, cy (mc pnt)) = mc (cx pnt + a, cy pnt)) by (intros; unfold moved_coord, cx, cy; cbn; f_equal; lia).
      assert (M2 : forall b, (cx (mc pnt), cy (mc pnt) + b) = mc (cx pnt, cy pnt + b)) by (intros; unfold moved_coord, cx, cy; cbn; f_equal; lia).
      rewrite X, Y. destruct (are_equal _ _).
      + destruct (cx pnt =? cx en); [rewrite M2; apply IH|]. destruct (cy pnt =? cy en); [rewrite M1; apply IH|rewrite M; apply IH].
      + destruct (dlt _ _); [rewrite M1; apply IH|rewrite M2; apply IH].
  Qed.

  Lemma w2cells_shift b l l' : world_to_cells scale b = Ok l -> world_to_cells scale (mseg b) = Ok l' -> l' = map mc l.
  Proof using Hs.
    unfold world_to_cells. cbv zeta. intros A B.
    apply bind_Ok_inv in A. destruct A as (c0 & A0 & A). apply bind_Ok_inv in A. destruct A as (c1 & A1 & A).
    apply bind_Ok_inv in B. destruct B as (d0 & B0 & B). apply bind_Ok_inv in B. destruct B as (d1 & B1 & B).
    assert (E0 := w2cell_shift _ _ _ A0 B0). assert (E1 := w2cell_shift _ _ _ A1 B1). subst d0 d1.
    cbn [moved_segment sbeg send] in B. cbn [dadd dsub dmul ddiv dofZ ROps] in A, B.
    assert (DX : (ptx (mp (send b)) - ptx (mp (sbeg b)) = ptx (send b) - ptx (sbeg b))%R) by (unfold moved_point, moved_x, ptx; cbn [fst]; ring).
    assert (DY : (pty (mp (send b)) - pty (mp (sbeg b)) = pty (send b) - pty (sbeg b))%R) by (unfold moved_point, moved_y, pty; cbn [snd]; ring).
    rewrite DX, DY in B.
    replace (cx (mc c1) - cx (mc c0)) with (cx c1 - cx c0) in B by (unfold moved_coord, cx; cbn; lia).
    replace (cy (mc c1) - cy (mc c0)) with (cy c1 - cy c0) in B by (unfold moved_coord, cy; cbn; lia).
    match type of A with w2c_loop _ _ _ _ _ _ _ _ _ ?e _ _ = _ => match type of B with w2c_loop _ _ _ _ _ _ _ _ _ ?e' _ _ = _ => replace e' with e in B end end.
    2: { unfold moved_coord, moved_point, moved_x, moved_y, ptx, pty, cx, cy; cbn [fst snd]. rewrite !plus_IZR. ring. }
    change (@nil coord) with (map mc []) in B at 1. rewrite w2c_loop_shift, A in B. cbn [bind] in B. congruence.
  Qed.

  Lemma cdist_shift a b : cdist_sq (D := R) (mc a) (mc b) = cdist_sq a b.
  Proof using Type.
    unfold cdist_sq. replace (cx (mc a) - cx (mc b)) with (cx a - cx b) by (unfold moved_coord, cx; cbn; lia).
    replace (cy (mc a) - cy (mc b)) with (cy a - cy b) by (unfold moved_coord, cy; cbn; lia). reflexivity.
  Qed.
  Lemma len_shift b : length_sq (mseg b) = length_sq b.
  Proof using Type.
    unfold length_sq, dist_sq, moved_segment, moved_point, moved_x, moved_y, ptx, pty; cbn [sbeg send fst snd dadd dsub dmul ROps]. f_equal; ring.
  Qed.
  Lemma bounds_shift c r r' : world_cell_bounds scale c = Ok r -> world_cell_bounds scale (mc c) = Ok r' -> r' = mrect r.
  Proof using Type.
    unfold world_cell_bounds, mk_rect. intros A B.
    destruct (_ && _) in A; [|discriminate]. destruct (_ && _) in B; [|discriminate].
    assert (EA : r = mkRect (scale * IZR (cy c))%R (scale * IZR (cy c + 1))%R (scale * IZR (cx c))%R (scale * IZR (cx c + 1))%R) by (injection A as A; rewrite <- A; reflexivity).
    assert (EB : r' = mkRect (scale * IZR (cy (mc c)))%R (scale * IZR (cy (mc c) + 1))%R (scale * IZR (cx (mc c)))%R (scale * IZR (cx (mc c) + 1))%R) by (injection B as B; rewrite <- B; reflexivity).
    subst. unfold moved_rect, moved_x, moved_y, moved_coord, cx, cy; cbn [fst snd bot top left right]. rewrite !plus_IZR. f_equal; ring.
  Qed.

  (** ** inserting a scan *)
  Section Adder.
    Context {M1 M2 : Type}.
    Variables (upd1 : M1 -> coord -> aoo R -> outcome M1) (upd2 : M2 -> coord -> aoo R -> outcome M2).
    Variables (est1 est2 : segment R -> rect R -> bool -> outcome (occup R)) (qual : list (scan_point R) -> Z -> outcome R) (range blur : R) (datan2 : R -> R -> R).
    Variable Rm : M1 -> M2 -> Prop.
    Hypothesis Hupd : forall m1 m2 c a m1' m2', Rm m1 m2 -> upd1 m1 c a = Ok m1' -> upd2 m2 (mc c) (mobs a) = Ok m2' -> Rm m1' m2'.
    Hypothesis Hest : forall b r o v v', est1 b r o = Ok v -> est2 (mseg b) (mrect r) o = Ok v' -> v' = v.

    Lemma free_obs_shift b q base ob od hd pt a a' :
      free_cell_obs scale est1 b q base ob od hd pt = Ok a -> free_cell_obs scale est2 (mseg b) q base (mc ob) od hd (mc pt) = Ok a' -> a' = mobs a.
    Proof using Hest.
      unfold free_cell_obs. cbv zeta. rewrite cdist_shift. intros A B.
      apply bind_Ok_inv in A. destruct A as (r & A0 & A). apply bind_Ok_inv in A. destruct A as (v & A1 & A).
      apply bind_Ok_inv in B. destruct B as (r' & B0 & B). apply bind_Ok_inv in B. destruct B as (v' & B1 & B).
      assert (E := bounds_shift _ _ _ A0 B0). subst r'. assert (E := Hest _ _ _ _ _ A1 B1). subst v'.
      destruct (_ && _); inversion A; inversion B; reflexivity.
    Qed.
    Lemma free_loop_shift b q base ob od hd : forall pts m1 m2 m1' m2', Rm m1 m2 ->
      free_cells_loop upd1 scale est1 b q base ob od hd pts m1 = Ok m1' ->
      free_cells_loop upd2 scale est2 (mseg b) q base (mc ob) od hd (map mc pts) m2 = Ok m2' -> Rm m1' m2'.
    Proof using Hest Hupd.
      induction pts as [|pt pts IH]; intros m1 m2 m1' m2' H; cbn [free_cells_loop map]; intros A B.
      - congruence.
      - apply bind_Ok_inv in A. destruct A as (a & A0 & A). apply bind_Ok_inv in A. destruct A as (n1 & A1 & A).
        apply bind_Ok_inv in B. destruct B as (a' & B0 & B). apply bind_Ok_inv in B. destruct B as (n2 & B1 & B).
        assert (E := free_obs_shift _ _ _ _ _ _ _ _ _ A0 B0). subst a'. exact (IH _ _ _ _ (Hupd _ _ _ _ _ _ H A1 B1) A B).
    Qed.
    Lemma removelast_map {A B} (f : A -> B) l : removelast (map f l) = map f (removelast l).
    Proof using Type. induction l as [|x [|y l] IH]; [reflexivity|reflexivity|]. cbn [map removelast] in *. now rewrite IH. Qed.
    Lemma blur_shift b o : blur_cell_dist scale blur (mseg b) o = blur_cell_dist scale blur b o.
    Proof using Type. unfold blur_cell_dist. rewrite len_shift. reflexivity. Qed.
    Lemma handle_shift m1 m2 m1' m2' o q b : Rm m1 m2 ->
      handle_scan_point upd1 scale est1 range blur m1 o q b = Ok m1' ->
      handle_scan_point upd2 scale est2 range blur m2 o q (mseg b) = Ok m2' -> Rm m1' m2'.
    Proof using Hest Hupd Hs.
      intros H. unfold handle_scan_point. cbv zeta. rewrite len_shift, blur_shift. destruct (dlt _ _); [congruence|]. intros A B.
      apply bind_Ok_inv in A. destruct A as (r & A0 & A). apply bind_Ok_inv in A. destruct A as (ob & A1 & A). apply bind_Ok_inv in A. destruct A as (pts & A2 & A).
      apply bind_Ok_inv in B. destruct B as (r' & B0 & B). apply bind_Ok_inv in B. destruct B as (ob' & B1 & B). apply bind_Ok_inv in B. destruct B as (pts' & B2 & B).
      assert (E := w2cell_shift _ _ _ A0 B0). subst r'. assert (E := w2cell_shift _ _ _ A1 B1). subst ob'. assert (E := w2cells_shift _ _ _ A2 B2). subst pts'.
      rewrite <- map_rev in B. destruct (rev pts) as [|bk rest]; [discriminate|]. cbn [map] in B. rewrite cdist_shift, removelast_map in B.
      apply bind_Ok_inv in A. destruct A as (bd & A3 & A). apply bind_Ok_inv in A. destruct A as (ba & A4 & A). apply bind_Ok_inv in A. destruct A as (n1 & A5 & A).
      apply bind_Ok_inv in B. destruct B as (bd' & B3 & B). apply bind_Ok_inv in B. destruct B as (ba' & B4 & B). apply bind_Ok_inv in B. destruct B as (n2 & B5 & B).
      assert (E := bounds_shift _ _ _ A3 B3). subst bd'. assert (E := Hest _ _ _ _ _ A4 B4). subst ba'.
      exact (free_loop_shift _ _ _ _ _ _ _ _ _ _ _ (Hupd _ _ _ _ _ _ H A5 B5) A B).
    Qed.
    Lemma origin_shift p tp sp : sp_move_origin_tp datan2 (mp p) tp sp = (w <- sp_move_origin_tp datan2 p tp sp ;; Ok (mp w)).
    Proof using Type.
      unfold sp_move_origin_tp. destruct (tp_cos tp _); try reflexivity. cbn [bind]. destruct (tp_sin tp _); try reflexivity. cbn [bind].
      match goal with |- Ok ?a = Ok ?b => assert (X : a = b); [|rewrite X; reflexivity] end.
      unfold moved_point, moved_x, moved_y, ptx, pty; cbn [fst snd dadd dmul ROps]. apply injective_projections; cbn [fst snd]; ring.
    Qed.
    Lemma append_loop_shift tp rp pts sq last : forall fuel i m1 m2 m1' m2', Rm m1 m2 ->
      append_loop upd1 scale est1 qual range blur datan2 fuel tp rp pts sq i last m1 = Ok m1' ->
      append_loop upd2 scale est2 qual range blur datan2 fuel tp (mp rp) pts sq i last m2 = Ok m2' -> Rm m1' m2'.
    Proof using Hest Hupd Hs.
      induction fuel as [|fuel IH]; intros i m1 m2 m1' m2' H; cbn [append_loop]; destruct (i <=? last); try congruence; try discriminate.
      destruct (nth_error pts (Z.to_nat i)) as [sp|]; [|discriminate]. rewrite origin_shift. intros A B.
      apply bind_Ok_inv in A. destruct A as (w & A0 & A). rewrite A0 in B. cbn [bind] in B.
      apply bind_Ok_inv in A. destruct A as (q & A1 & A). rewrite A1 in B. cbn [bind] in B.
      apply bind_Ok_inv in A. destruct A as (n1 & A2 & A). apply bind_Ok_inv in B. destruct B as (n2 & B2 & B).
      change (mkSegment (mp rp) (mp w)) with (mseg (mkSegment rp w)) in B2. exact (IH _ _ _ _ _ (handle_shift _ _ _ _ _ _ _ H A2 B2) A B).
    Qed.
    Lemma append_shift trig m1 m2 m1' m2' p pts sq margin : Rm m1 m2 ->
      append_scan upd1 scale est1 qual range blur datan2 trig m1 p pts sq margin = Ok m1' ->
      append_scan upd2 scale est2 qual range blur datan2 trig m2 (mpose p) pts sq margin = Ok m2' -> Rm m1' m2'.
    Proof using Hest Hupd Hs.
      intros H. unfold append_scan. destruct pts as [|p0 pts]; [congruence|]. intros A B.
      apply bind_Ok_inv in A. destruct A as (l & A0 & A). rewrite A0 in B. cbn [bind] in B.
      apply bind_Ok_inv in A. destruct A as (i & A1 & A). rewrite A1 in B. cbn [bind] in B.
      exact (append_loop_shift _ _ _ _ _ _ _ _ _ _ _ H A B).
    Qed.
  End Adder.

  (** ** cells and maps *)
  Lemma cell_shift c c' a : mcell c c' -> mcell (acell_upd c a) (acell_upd c' (mobs a)).
  Proof using Type.
    intros H. destruct H as [c|c|c|c|c|c tries o|c hits tries o Hh]; cbn [acell_upd]; try (constructor).
    - unfold gm_upd. cbn [a_occ moved_obs g_tries g_hits g_cell g_obst a_obst]. destruct (occ_valid (a_occ a)); [|constructor].
      destruct (int_incr tries) as [t| | |]; cbn [bind]; try constructor. destruct (dle _ _); [constructor|].
      change (int_incr 0) with (Ok 1 : outcome Z). cbn [bind].
      match goal with |- mcell (CGmapping (mkGm ?x _ _ ?o1)) (CGmapping (mkGm _ _ _ ?o2)) => replace o2 with (mp o1); [constructor; lia|] end.
      unfold moved_point, moved_x, moved_y, ptx, pty; cbn [fst snd dadd dmul ddiv dofZ ROps]. f_equal; cbn; field.
    - unfold gm_upd. cbn [a_occ moved_obs g_tries g_hits g_cell g_obst a_obst]. destruct (occ_valid (a_occ a)); [|now constructor].
      destruct (int_incr tries) as [t| | |]; cbn [bind]; try (constructor; assumption). destruct (dle _ _); [constructor; assumption|].
      unfold int_incr. destruct (in_int (hits + 1)); cbn [bind]; [|constructor; assumption].
      match goal with |- mcell (CGmapping (mkGm ?x _ _ ?o1)) (CGmapping (mkGm _ _ _ ?o2)) => replace o2 with (mp o1); [constructor; lia|] end.
      unfold moved_point, moved_x, moved_y, ptx, pty; cbn [fst snd dadd dmul ddiv dofZ ROps].
      assert (IZR (hits + 1) <> 0)%R by (apply IZR_neq; lia). replace (hits + 1 - 1) with hits by lia.
      rewrite plus_IZR in *. f_equal; field; assumption.
  Qed.
  Lemma map_shift {M1 M2} (upd1 : M1 -> coord -> aoo R -> outcome M1) (upd2 : M2 -> coord -> aoo R -> outcome M2) (f1 : M1 -> coord -> acell R) (f2 : M2 -> coord -> acell R) :
    cellwise upd1 f1 -> cellwise upd2 f2 -> forall m1 m2 c a m1' m2', moved_map scale s (f1 m1) (f2 m2) ->
    upd1 m1 c a = Ok m1' -> upd2 m2 (mc c) (mobs a) = Ok m2' -> moved_map scale s (f1 m1') (f2 m2').
  Proof using Type.
    intros L1 L2 m1 m2 c a m1' m2' H A B x. destruct (L1 _ _ _ _ A) as [A1 A2]. destruct (L2 _ _ _ _ B) as [B1 B2].
    destruct (coord_eqb x c) eqn:E.
    - assert (x = c) by (unfold coord_eqb, cx, cy in E; destruct x, c; apply andb_true_iff in E; rewrite !Z.eqb_eq in E; cbn in E; f_equal; lia). subst x.
      rewrite A1, B1. apply cell_shift, H.
    - assert (N : x <> c) by (intros ->; unfold coord_eqb in E; rewrite !Z.eqb_refl in E; discriminate).
      rewrite A2 by exact N. rewrite B2; [apply H|]. intros X. apply mc_inj in X. exact (N X).
  Qed.

  (** ** whole runs *)
  Lemma pose_add_shift p d : pose_add (mpose p) d = mpose (pose_add p d).
  Proof using Type. unfold pose_add, moved_pose, moved_x, moved_y; cbn [px py pth dadd ROps]. f_equal; ring. Qed.

  Section World.
    Context {S M1 M2 SM1 SM2 : Type}.
    Variables (reset1 : SM1 -> SM1) (reset2 : SM2 -> SM2).
    Variables (proc1 : SM1 -> S -> pose R -> M1 -> outcome (R * pose R * SM1)) (proc2 : SM2 -> S -> pose R -> M2 -> outcome (R * pose R * SM2)).
    Variables (add1 : M1 -> pose R -> S -> R -> R -> outcome M1) (add2 : M2 -> pose R -> S -> R -> R -> outcome M2).
    Variables (ql qr margin : R) (Rm : M1 -> M2 -> Prop) (Rs : SM1 -> SM2 -> Prop).
    Hypothesis Hadd : forall m1 m2 m1' m2' p sc q, Rm m1 m2 -> add1 m1 p sc q margin = Ok m1' -> add2 m2 (mpose p) sc q margin = Ok m2' -> Rm m1' m2'.
    Hypothesis Hproc : forall a b sc p m1 m2 q1 d1 a' q2 d2 b', Rs a b -> Rm m1 m2 -> proc1 (reset1 a) sc p m1 = Ok (q1, d1, a') ->
      proc2 (reset2 b) sc (mpose p) m2 = Ok (q2, d2, b') -> d2 = d1 /\ Rs a' b'.
    Definition Rw (a : ss_world R M1 SM1) (b : ss_world R M2 SM2) : Prop :=
      ss_pose b = mpose (ss_pose a) /\ ss_log b = ss_log a /\ Rm (ss_map a) (ss_map b) /\ Rs (ss_sm a) (ss_sm b).
    Lemma observe_shift a b sc a' b' : Rw a b -> ss_observe reset1 proc1 add1 ql qr margin a sc = Ok a' -> ss_observe reset2 proc2 add2 ql qr margin b sc = Ok b' -> Rw a' b'.
    Proof using Hadd Hproc.
      intros (Hp & Hl & Hm & Hsm). unfold ss_observe. intros A B.
      apply bind_Ok_inv in A. destruct A as ([[q1 d1] s1] & A0 & A). apply bind_Ok_inv in B. destruct B as ([[q2 d2] s2] & B0 & B).
      rewrite Hp in B0. destruct (Hproc _ _ _ _ _ _ _ _ _ _ _ _ Hsm Hm A0 B0) as [-> Hs'].
      apply bind_Ok_inv in A. destruct A as (m1 & A1 & A). apply bind_Ok_inv in B. destruct B as (m2 & B1 & B).
      cbn [ss_update ss_pose ss_map ss_sm ss_log] in *. rewrite Hp, pose_add_shift in B1.
      assert (Q := Hadd _ _ _ _ _ _ _ Hm A1 B1). inversion A; inversion B; subst. unfold Rw; cbn [ss_pose ss_map ss_sm ss_log].
      rewrite Hp, Hl, pose_add_shift. auto.
    Qed.
    Lemma run_shift : forall h o a b o1 o2 a' b' n1 n2, Rw a b ->
      ss_run reset1 proc1 add1 ql qr margin o a h = Ok (o1, a', n1) -> ss_run reset2 proc2 add2 ql qr margin o b h = Ok (o2, b', n2) ->
      o1 = o2 /\ Rw a' b' /\ Forall2 (moved_note scale s Rm) n1 n2.
    Proof using Hadd Hproc.
      induction h as [|e h IH]; intros o a b o1 o2 a' b' n1 n2 H A B; unfold ss_run in A, B; cbn [world_run] in A, B.
      - inversion A; inversion B; subst. split; [reflexivity|]. split; [exact H|constructor].
      - destruct e as [id|id|id|sc]; try (exact (IH _ _ _ _ _ _ _ _ _ H A B)).
        apply bind_Ok_inv in A. destruct A as ([a1 k1] & A0 & A). apply bind_Ok_inv in B. destruct B as ([b1 k2] & B0 & B).
        apply bind_Ok_inv in A. destruct A as ([[p1 a2] l1] & A1 & A). apply bind_Ok_inv in B. destruct B as ([[p2 b2] l2] & B1 & B).
        unfold handle_sensor_data in A0, B0. cbn [bind] in A0, B0.
        apply bind_Ok_inv in A0. destruct A0 as (a3 & A2 & A0). apply bind_Ok_inv in B0. destruct B0 as (b3 & B2 & B0).
        assert (H1 : Rw (ss_update a (ts_delta sc)) (ss_update b (ts_delta sc))).
        { destruct H as (Hp & Hl & Hm & Hsm). unfold Rw, ss_update; cbn [ss_pose ss_map ss_sm ss_log]. rewrite Hp, pose_add_shift. auto. }
        assert (H2 := observe_shift _ _ _ _ _ H1 A2 B2).
        assert (Ea : a1 = a3 /\ k1 = notify_with_pose o (ss_pose a3) ++ notify_with_map o (ss_map a3)) by (split; congruence).
        assert (Eb : b1 = b3 /\ k2 = notify_with_pose o (ss_pose b3) ++ notify_with_map o (ss_map b3)) by (split; congruence).
        destruct Ea as [-> ->], Eb as [-> ->].
        destruct (IH _ _ _ _ _ _ _ _ _ H2 A1 B1) as (E1 & E2 & E3). inversion A; inversion B; subst. split; [reflexivity|]. split; [exact E2|].
        apply Forall2_app; [|exact E3]. destruct H2 as (Hp & _ & Hm & _). apply Forall2_app.
        + unfold notify_with_pose. rewrite Hp. induction (wo_pose o) as [|id l IHl]; [constructor|]. cbn [flat_map]. apply Forall2_app; [|exact IHl].
          destruct (locks o id); repeat constructor.
        + unfold notify_with_map. induction (wo_map o) as [|id l IHl]; [constructor|]. cbn [flat_map]. apply Forall2_app; [|exact IHl].
          destruct (locks o id); [|constructor]. constructor; [now constructor|constructor].
    Qed.
  End World.
End Shift.
