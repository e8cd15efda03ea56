From Coq Require Import Ascii String ZArith List Bool Lia.
From Verif.Base Require Import Outcome Num.
From Verif.Model Require Import MathUtils Geometry Sensor Grid PlainMap Cells Properties DataGen.
From Verif.Spec Require Import MapSpec DataGenSpec.
From Verif.Proofs Require Import PlainMapProofs.
Import ListNotations.
Local Open Scope Z_scope.

Section Raster.
  Context {D : Type} {dops : DOps D} {C : Type}.
  Variable (cell_upd : C -> aoo D -> C).
  Variable (off : coord).

  Definition obs_of (ch : ascii) : aoo D := patch_aoo (char_to_occupancy ch).
  Definition pw (p : patch D) : write C (aoo D) := WObserve (coord_add (p_coord p) off) (patch_aoo (p_occ p)).
  Definition drawn (f : tmap C) (l : list (patch D)) : tmap C := t_run cell_upd f (map pw l).

  Lemma drawn_app f l l' : drawn f (l ++ l') = drawn (drawn f l) l'.
  Proof. unfold drawn, t_run. rewrite map_app, fold_left_app. reflexivity. Qed.

  Definition upd_opt (v : C) (o : option (aoo D)) : C := match o with Some o => cell_upd v o | None => v end.

  Lemma char_patches_spec n x y o :
    snd (char_patches n (x, y) o) = (x + Z.of_nat n, y) /\
    forall f c, drawn f (fst (char_patches n (x, y) o)) c =
      upd_opt (f c) (if (snd c - snd off =? y) && (x <=? fst c - fst off) && (fst c - fst off <? x + Z.of_nat n) then Some (patch_aoo o) else None).
  Proof.
    revert x. induction n as [|n IH]; intros x.
    - cbn [char_patches fst snd]. split; [f_equal; lia|]. intros f c. unfold drawn, t_run. cbn [map fold_left].
      replace (_ && _ && _) with false; [reflexivity|]. destruct (Z.leb_spec x (fst c - fst off)), (Z.ltb_spec (fst c - fst off) (x + Z.of_nat 0)); try lia; destruct (_ =? y); reflexivity.
    - cbn [char_patches]. unfold cx, cy. cbn [fst snd]. specialize (IH (x + 1)). destruct (char_patches n (x + 1, y) o) as [l wc']. cbn [fst snd] in *.
      destruct IH as [E IH]. split; [rewrite E; f_equal; lia|]. intros f c. change (mkPatch (x, y) o :: l) with ([mkPatch (x, y) o] ++ l). rewrite drawn_app, IH.
      unfold drawn, t_run. cbn [map fold_left]. unfold pw. cbn [p_coord p_occ t_step]. unfold t_write, coord_add, cx, cy. cbn [fst snd].
      destruct (coord_eq_dec c (x + fst off, y + snd off)) as [->|N]; cbn [fst snd].
      + rewrite (proj2 (Z.eqb_eq (y + snd off - snd off) y)) by lia. cbn [andb].
        destruct (Z.leb_spec (x + 1) (x + fst off - fst off)); [lia|].
        destruct (Z.leb_spec x (x + fst off - fst off)); [|lia]. destruct (Z.ltb_spec (x + fst off - fst off) (x + Z.of_nat (S n))); [|lia]. reflexivity.
      + destruct (Z.eqb_spec (snd c - snd off) y) as [Ey|]; [|reflexivity]. cbn [andb].
        assert (fst c <> x + fst off) by (intros E'; apply N; destruct c; cbn [fst snd] in *; f_equal; lia).
        destruct (Z.leb_spec (x + 1) (fst c - fst off)), (Z.leb_spec x (fst c - fst off)); try lia; cbn [andb]; [|reflexivity].
        destruct (Z.ltb_spec (fst c - fst off) (x + 1 + Z.of_nat n)), (Z.ltb_spec (fst c - fst off) (x + Z.of_nat (S n))); try lia; reflexivity.
  Qed.

  Variables (w h : nat).
  Hypotheses (Hw : (0 < w)%nat) (Hh : (0 < h)%nat).

  Lemma nth_shift (row : str) ch d : 0 <= d -> nth_error (ch :: row) (Z.to_nat (d / Z.of_nat w)) =
    if d <? Z.of_nat w then Some ch else nth_error row (Z.to_nat ((d - Z.of_nat w) / Z.of_nat w)).
  Proof.
    intros Hd. destruct (Z.ltb_spec d (Z.of_nat w)).
    - rewrite Z.div_small by lia. reflexivity.
    - replace (d / Z.of_nat w) with ((d - Z.of_nat w) / Z.of_nat w + 1) by (rewrite <- Z.div_add by lia; f_equal; lia).
      rewrite Z2Nat.inj_add by (try apply Z.div_pos; lia). rewrite Nat.add_1_r. reflexivity.
  Qed.

  Lemma row_patches_spec row x y :
    snd (row_patches w row (x, y)) = (x + Z.of_nat (w * length row), y) /\
    forall f c, drawn f (fst (row_patches w row (x, y))) c =
      upd_opt (f c) (if (snd c - snd off =? y) && (x <=? fst c - fst off) then
                       option_map obs_of (nth_error row (Z.to_nat ((fst c - fst off - x) / Z.of_nat w))) else None).
  Proof.
    revert x. induction row as [|ch row IH]; intros x.
    - cbn [row_patches fst snd length]. split; [f_equal; lia|]. intros f c. unfold drawn, t_run. cbn [map fold_left].
      destruct (_ && _); [|reflexivity]. destruct (Z.to_nat _); reflexivity.
    - cbn [row_patches]. destruct (char_patches_spec w x y (char_to_occupancy ch)) as [E1 S1].
      destruct (char_patches w (x, y) (char_to_occupancy ch)) as [l wc1]. cbn [fst snd] in E1, S1. subst wc1.
      specialize (IH (x + Z.of_nat w)). destruct (row_patches w row (x + Z.of_nat w, y)) as [l' wc2]. cbn [fst snd] in *. destruct IH as [E2 S2].
      split; [rewrite E2; cbn [length]; f_equal; lia|]. intros f c. rewrite drawn_app, S2, S1.
      destruct (snd c - snd off =? y); [|reflexivity]. cbn [andb].
      destruct (Z.leb_spec x (fst c - fst off)).
      + cbn [andb]. rewrite nth_shift by lia.
        destruct (Z.ltb_spec (fst c - fst off) (x + Z.of_nat w)), (Z.ltb_spec (fst c - fst off - x) (Z.of_nat w)), (Z.leb_spec (x + Z.of_nat w) (fst c - fst off)); try lia; cbn [upd_opt option_map]; [reflexivity|].
        do 4 f_equal. f_equal. lia.
      + cbn [andb]. destruct (Z.leb_spec (x + Z.of_nat w) (fst c - fst off)); [lia|]. reflexivity.
  Qed.

  (** the character row [row] at column [x] *)
  Definition row_at (row : str) (x : Z) : option ascii := if 0 <=? x then nth_error row (Z.to_nat (x / Z.of_nat w)) else None.

  Lemma rows_patches_spec n row x y :
    cy (snd (rows_patches n w row (x, y))) = y - Z.of_nat n /\
    forall f c, drawn f (fst (rows_patches n w row (x, y))) c =
      upd_opt (f c) (if (y - Z.of_nat n <? snd c - snd off) && (snd c - snd off <=? y) then
                       option_map obs_of (row_at row (fst c - fst off)) else None).
  Proof.
    revert x y. induction n as [|n IH]; intros x y.
    - cbn [rows_patches fst snd]. split; [cbn; lia|]. intros f c. unfold drawn, t_run. cbn [map fold_left].
      destruct (Z.ltb_spec (y - Z.of_nat 0) (snd c - snd off)), (Z.leb_spec (snd c - snd off) y); try lia; reflexivity.
    - cbn [rows_patches]. unfold cy at 2. cbn [snd]. destruct (row_patches_spec row 0 y) as [E1 S1].
      change (cy (x, y)) with y. destruct (row_patches w row (0, y)) as [l wc1]. cbn [fst snd] in E1, S1. subst wc1. unfold cx, cy at 1. cbn [fst snd].
      specialize (IH (0 + Z.of_nat (w * length row)) (y - 1)). change (cy (0 + Z.of_nat (w * length row), y)) with y. destruct (rows_patches n w row _) as [l' wc2]. cbn [fst snd] in *. destruct IH as [E2 S2].
      split; [unfold cy in *; rewrite E2; lia|]. intros f c. rewrite drawn_app, S2, S1. unfold row_at. rewrite Z.sub_0_r.
      destruct (Z.eqb_spec (snd c - snd off) y).
      + destruct (Z.ltb_spec (y - 1 - Z.of_nat n) (snd c - snd off)), (Z.leb_spec (snd c - snd off) (y - 1)); try lia.
        destruct (Z.ltb_spec (y - Z.of_nat (S n)) (snd c - snd off)), (Z.leb_spec (snd c - snd off) y); try lia. cbn [andb].
        destruct (0 <=? fst c - fst off); reflexivity.
      + cbn [andb upd_opt].
        destruct (Z.ltb_spec (y - 1 - Z.of_nat n) (snd c - snd off)), (Z.leb_spec (snd c - snd off) (y - 1)),
          (Z.ltb_spec (y - Z.of_nat (S n)) (snd c - snd off)), (Z.leb_spec (snd c - snd off) y); try lia; cbn [andb]; reflexivity.
  Qed.

  Definition lines_at (lines : list str) (x d : Z) : option ascii :=
    if 0 <=? d then match nth_error lines (Z.to_nat (d / Z.of_nat h)) with Some row => row_at row x | None => None end else None.

  Lemma raster_patches_spec lines x y mw mh : 0 <= mw ->
    snd (fst (raster_patches (D := D) w h lines (x, y) mw mh)) = Z.max mw (raster_w (until_empty lines)) /\
    snd (raster_patches (D := D) w h lines (x, y) mw mh) = mh + raster_h (until_empty lines) /\
    forall f c, drawn f (fst (fst (raster_patches w h lines (x, y) mw mh))) c =
      upd_opt (f c) (option_map obs_of (lines_at (until_empty lines) (fst c - fst off) (y - (snd c - snd off)))).
  Proof.
    revert x y mw mh. induction lines as [|row lines IH]; intros x y mw mh Hm.
    - cbn [raster_patches until_empty fst snd]. unfold raster_w, raster_h. cbn [fold_right length]. split; [lia|]. split; [lia|].
      intros f c. unfold drawn, t_run, lines_at. cbn [map fold_left]. destruct (0 <=? _); [|reflexivity]. destruct (Z.to_nat _); reflexivity.
    - destruct row as [|ch row].
      { cbn [raster_patches until_empty fst snd]. unfold raster_w, raster_h. cbn [fold_right length]. split; [lia|]. split; [lia|].
        intros f c. unfold drawn, t_run, lines_at. cbn [map fold_left]. destruct (0 <=? _); [|reflexivity]. destruct (Z.to_nat _); reflexivity. }
      cbn [raster_patches until_empty]. remember (ch :: row) as r eqn:Er. clear Er ch row.
      destruct (rows_patches_spec h r x y) as [E1 S1]. destruct (rows_patches h w r (x, y)) as [l [x1 y1]]. cbn [fst snd] in E1, S1. unfold cy in E1. cbn in E1. subst y1.
      specialize (IH x1 (y - Z.of_nat h) (Z.max mw (Z.of_nat (length r))) (mh + 1) ltac:(lia)).
      destruct (raster_patches w h lines _ _ _) as [[l' W] H]. cbn [fst snd] in *. destruct IH as (E2 & E3 & S2).
      split; [rewrite E2; unfold raster_w; cbn [fold_right]; lia|]. split; [rewrite E3; unfold raster_h; cbn [length]; lia|].
      intros f c. rewrite drawn_app, S2, S1. unfold lines_at. set (d := y - (snd c - snd off)).
      replace (y - Z.of_nat h - (snd c - snd off)) with (d - Z.of_nat h) by (unfold d; lia).
      destruct (Z.leb_spec 0 d) as [Hd|Hd].
      + destruct (Z.leb_spec 0 (d - Z.of_nat h)).
        * replace (d / Z.of_nat h) with ((d - Z.of_nat h) / Z.of_nat h + 1) by (rewrite <- Z.div_add by lia; f_equal; lia).
          rewrite Z2Nat.inj_add by (try apply Z.div_pos; lia). rewrite Nat.add_1_r. cbn [nth_error].
          destruct (Z.ltb_spec (y - Z.of_nat h) (snd c - snd off)); [unfold d in *; lia|]. reflexivity.
        * rewrite (Z.div_small d) by lia. cbn [Z.to_nat nth_error].
          destruct (Z.ltb_spec (y - Z.of_nat h) (snd c - snd off)), (Z.leb_spec (snd c - snd off) y); try (unfold d in *; lia). reflexivity.
      + destruct (Z.leb_spec 0 (d - Z.of_nat h)); [lia|]. destruct (Z.leb_spec (snd c - snd off) y); [unfold d in *; lia|]. rewrite andb_false_r. reflexivity.
  Qed.
End Raster.

(** all patches lie within the drawn rectangle *)
Section Inside.
  Context {D : Type} {dops : DOps D}.
  Lemma char_patches_in n x y (o : occup D) p : In p (fst (char_patches n (x, y) o)) -> x <= cx (p_coord p) < x + Z.of_nat n /\ cy (p_coord p) = y.
  Proof.
    revert x. induction n as [|n IH]; intros x; cbn [char_patches]; [intros []|]. unfold cx, cy. cbn [fst snd]. specialize (IH (x + 1)).
    destruct (char_patches n (x + 1, y) o) as [l wc]. cbn [fst] in *. intros [<-|H]; [cbn; lia|]. destruct (IH H) as [A B]. unfold cx, cy in *. lia.
  Qed.
  Lemma char_patches_end n x y (o : occup D) : snd (char_patches n (x, y) o) = (x + Z.of_nat n, y).
  Proof.
    revert x. induction n as [|n IH]; intros x; cbn [char_patches snd]; [f_equal; lia|]. unfold cx, cy. cbn [fst snd]. specialize (IH (x + 1)).
    destruct (char_patches n (x + 1, y) o) as [l wc]. cbn [snd] in *. rewrite IH. f_equal; lia.
  Qed.
  Lemma row_patches_in w row x y (p : patch D) : In p (fst (row_patches w row (x, y))) -> x <= cx (p_coord p) < x + Z.of_nat (w * length row) /\ cy (p_coord p) = y.
  Proof.
    revert x. induction row as [|ch row IH]; intros x; cbn [row_patches]; [intros []|].
    assert (A := char_patches_in w x y (char_to_occupancy ch)). assert (B := char_patches_end w x y (char_to_occupancy ch)).
    destruct (char_patches w (x, y) (char_to_occupancy ch)) as [l wc]. cbn [fst snd] in *. subst wc. specialize (IH (x + Z.of_nat w)).
    destruct (row_patches w row _) as [l' wc]. cbn [fst] in *. intros H. apply in_app_or in H. cbn [length]. destruct H as [H|H]; [apply A in H | apply IH in H]; nia.
  Qed.
  Lemma row_patches_end w row x y : snd (row_patches (D := D) w row (x, y)) = (x + Z.of_nat (w * length row), y).
  Proof.
    revert x. induction row as [|ch row IH]; intros x; cbn [row_patches]; [cbn; f_equal; lia|].
    assert (B := char_patches_end w x y (char_to_occupancy ch)).
    destruct (char_patches w (x, y) (char_to_occupancy ch)) as [l wc]. cbn [fst snd] in *. subst wc. specialize (IH (x + Z.of_nat w)).
    destruct (row_patches w row _) as [l' wc]. cbn [snd length] in *. rewrite IH. f_equal; lia.
  Qed.
  Lemma rows_patches_in n w row x y (p : patch D) : In p (fst (rows_patches n w row (x, y))) ->
    0 <= cx (p_coord p) < Z.of_nat (w * length row) /\ y - Z.of_nat n < cy (p_coord p) <= y.
  Proof.
    revert x y. induction n as [|n IH]; intros x y; cbn [rows_patches]; [intros []|]. change (cy (x, y)) with y.
    assert (A := row_patches_in w row 0 y). assert (B := row_patches_end w row 0 y). destruct (row_patches w row (0, y)) as [l wc]. cbn [fst snd] in *. subst wc. unfold cx, cy at 1. cbn [fst snd].
    specialize (IH (0 + Z.of_nat (w * length row)) (y - 1)). change (cy (0 + Z.of_nat (w * length row), y)) with y. destruct (rows_patches n w row _) as [l' wc]. cbn [fst] in *.
    intros H. apply in_app_or in H. destruct H as [H|H]; [apply A in H | apply IH in H]; unfold cx, cy in *; lia.
  Qed.
  Lemma rows_patches_end n w row x y : cy (snd (rows_patches (D := D) n w row (x, y))) = y - Z.of_nat n.
  Proof.
    revert x y. induction n as [|n IH]; intros x y; cbn [rows_patches]; [cbn; lia|]. change (cy (x, y)) with y.
    assert (B := row_patches_end w row 0 y). destruct (row_patches w row (0, y)) as [l wc]. cbn [fst snd] in *. subst wc.
    specialize (IH (0 + Z.of_nat (w * length row)) (y - 1)). unfold cx, cy in *. cbn [fst snd] in *. destruct (rows_patches n w row _) as [l' wc]. cbn [snd] in *. lia.
  Qed.
  Lemma raster_patches_in w h lines x y mw mh (p : patch D) : 0 <= mw -> In p (fst (fst (raster_patches w h lines (x, y) mw mh))) ->
    0 <= cx (p_coord p) < Z.of_nat w * raster_w (until_empty lines) /\ y - Z.of_nat h * raster_h (until_empty lines) < cy (p_coord p) <= y.
  Proof.
    revert x y mw mh. induction lines as [|row lines IH]; intros x y mw mh Hm; [intros []|]. destruct row as [|ch row]; [intros []|].
    cbn [raster_patches until_empty]. remember (ch :: row) as r eqn:Er. clear Er ch row.
    assert (A := rows_patches_in h w r x y). assert (B := rows_patches_end h w r x y). destruct (rows_patches h w r (x, y)) as [l [x1 y1]]. cbn [fst snd] in *. unfold cy in B. cbn in B. subst y1.
    specialize (IH x1 (y - Z.of_nat h) (Z.max mw (Z.of_nat (length r))) (mh + 1) ltac:(lia)).
    destruct (raster_patches w h lines _ _ _) as [[l' W] H]. cbn [fst snd] in *. intros HI.
    unfold raster_w, raster_h in *. cbn [fold_right length].
    assert (0 <= fold_right (fun (r0 : list ascii) w0 => Z.max (Z.of_nat (length r0)) w0) 0 (until_empty lines)) by (clear; induction (until_empty lines); cbn; lia).
    apply in_app_or in HI. destruct HI as [HI|HI]; [apply A in HI | apply IH in HI]; nia.
  Qed.
End Inside.

Section Apply.
  Context {D : Type} {dops : DOps D} {C : Type}.
  Variable (cell_upd : C -> aoo D -> C).
  Lemma apply_patches_run (m : pmap C) off (l : list (patch D)) :
    apply_patches (fun m c o => unb_update (ops := FOps) cell_upd m c o) m off l =
    unb_run (ops := FOps) cell_upd m (map (fun p => Update (coord_add (p_coord p) off) (patch_aoo (p_occ p))) l).
  Proof.
    revert m. induction l as [|p l IH]; intros m; [reflexivity|]. cbn [apply_patches map unb_run unb_step].
    destruct (unb_update cell_upd m _ _); cbn [bind]; [apply IH|reflexivity..].
  Qed.

  (** the offset used, and the drawing *)
  Theorem text_raster_drawn (proto : C) (w h M : Z) (text : str) (dst : option coord) (wz hz : Z) (off : coord) :
    1 <= w -> 1 <= h -> 0 <= M -> 4 * M + 2 * Z.max w h < 2 ^ 31 -> 0 < wz -> 0 < hz ->
    let lines := raster_lines text in
    off = match dst with Some o => o | None => (- (wz * raster_w lines / 2), hz * raster_h lines / 2) end ->
    Z.abs (fst off) + wz * raster_w lines <= M -> Z.abs (snd off) + hz * raster_h lines <= M ->
    exists m, apply_text_raster (fun m c o => unb_update (ops := FOps) cell_upd m c o) (pmap_new proto w h) text dst wz hz = Ok m /\
      forall c, unb_get m c = Ok (match pixel lines wz hz (fst c - fst off, snd c - snd off) with
        | Some ch => cell_upd proto (mkAoo true (mkOcc (dofZ (if Ascii.eqb ch " " then 0 else 1)) (dofZ 1)) (dofZ 0, dofZ 0) (dofZ 1))
        | None => proto end).
  Proof.
    intros Hw Hh HM HB Hwz Hhz lines Eoff Bx By. unfold apply_text_raster, patches_by_text_raster.
    replace ((0 <? wz) && (0 <? hz)) with true by (symmetry; rewrite andb_true_iff, !Z.ltb_lt; lia). cbn [assert_ bind].
    assert (A := fun p => raster_patches_in (Z.to_nat wz) (Z.to_nat hz) (getlines text) 0 0 0 0 (D := D) p (Z.le_refl 0)).
    destruct (raster_patches_spec cell_upd off (Z.to_nat wz) (Z.to_nat hz) ltac:(lia) ltac:(lia) (getlines text) 0 0 0 0 (Z.le_refl 0)) as (E1 & E2 & S).
    fold lines in A, E1, E2, S.
    assert (NW : 0 <= raster_w lines) by (unfold raster_w; clear; induction lines; cbn; lia).
    assert (NH : 0 <= raster_h lines) by (unfold raster_h; lia).
    fold (raster_lines text) in A, E1, E2, S. fold lines in A, E1, E2, S. cbv beta zeta.
    destruct (raster_patches (Z.to_nat wz) (Z.to_nat hz) (getlines text) (0, 0) 0 0) as [[l W] H]. cbn [fst snd] in *. rewrite Z.max_r in E1 by lia. rewrite Z.add_0_l in E2. subst W H.
    replace (match dst with Some o => o | None => (Z.quot (- wz * raster_w lines) 2, Z.quot (hz * raster_h lines) 2) end) with off.
    2: { rewrite Eoff. destruct dst; [reflexivity|]. rewrite <- Zopp_mult_distr_l, Z.quot_opp_l, !Z.quot_div_nonneg by nia. reflexivity. }
    rewrite apply_patches_run.
    destruct (unbounded_plain_refines cell_upd proto w h M (map (fun p => Update (coord_add (p_coord p) off) (patch_aoo (p_occ p))) l) Hw Hh HM HB) as (m & Em & G & _).
    { intros op HI. apply in_map_iff in HI. destruct HI as (p & <- & HI). destruct (A p HI) as [X Y]. rewrite !Z2Nat.id in * by lia.
      unfold within. cbn [op_write w_coord]. unfold coord_add. unfold cx, cy in *. cbn [fst snd]. lia. }
    exists m. split; [exact Em|]. intros c. rewrite G. f_equal.
    assert (EM : map op_write (map (fun p => Update (C := C) (coord_add (p_coord p) off) (patch_aoo (p_occ p))) l) = map (pw off) l) by (rewrite map_map; reflexivity).
    rewrite EM. fold (drawn cell_upd off (t_init proto) l). rewrite S. unfold t_init, pixel, lines_at, row_at. cbn [fst snd]. rewrite !Z2Nat.id by lia.
    replace (0 - (snd c - snd off)) with (- (snd c - snd off)) by lia.
    destruct (Z.leb_spec 0 (fst c - fst off)), (Z.leb_spec (snd c - snd off) 0), (Z.leb_spec 0 (- (snd c - snd off))); try lia; cbn [andb].
    1: destruct (nth_error lines _); [|reflexivity]; destruct (nth_error _ _) as [ch|]; cbn [option_map upd_opt]; [|reflexivity]; unfold obs_of, patch_aoo, char_to_occupancy; destruct (Ascii.eqb ch " "); reflexivity.
    all: try destruct (nth_error lines _); reflexivity.
  Qed.
End Apply.

(** ** cecum *)
Lemma getlines_row (row rest : str) : ~ In nl row -> getlines (row ++ nl :: rest) = row :: getlines rest.
Proof.
  induction row as [|c row IH]; intros N.
  - cbn [app getlines]. rewrite (proj2 (Ascii.eqb_eq nl nl) eq_refl). reflexivity.
  - cbn [app getlines]. destruct (Ascii.eqb_spec c nl) as [->|]; [exfalso; apply N; left; reflexivity|].
    rewrite IH by (intros H; apply N; right; exact H). reflexivity.
Qed.
Lemma until_empty_all (rows : list str) rest : (forall r, In r rows -> r <> []) -> until_empty (rows ++ [] :: rest) = rows.
Proof.
  induction rows as [|r rows IH]; intros N; [reflexivity|]. cbn [app until_empty]. destruct r; [exfalso; apply (N []); [left|]; reflexivity|].
  f_equal. apply IH. intros r' H. apply N. right. exact H.
Qed.
Lemma until_empty_id (rows : list str) : (forall r, In r rows -> r <> []) -> until_empty rows = rows.
Proof.
  induction rows as [|r rows IH]; intros N; [reflexivity|]. cbn [until_empty]. destruct r; [exfalso; apply (N []); [left|]; reflexivity|].
  f_equal. apply IH. intros r' H. apply N. right. exact H.
Qed.
Lemma getlines_rows (row : nat -> str) (l : list nat) rest : (forall i, In i l -> ~ In nl (row i)) ->
  getlines (flat_map (fun i => row i ++ [nl]) l ++ rest) = map row l ++ getlines rest.
Proof.
  induction l as [|i l IH]; intros N; [reflexivity|]. cbn [flat_map map app]. rewrite <- !app_assoc. cbn [app].
  rewrite getlines_row by (apply N; left; reflexivity). f_equal. apply IH. intros j H. apply N. right. exact H.
Qed.

Definition side_bound (s : side) : bound_position := match s with SLeft => BLeft | SRight => BRight | STop => BTop | SBottom => BBot end.
Definition wall_row (w h : Z) (s : side) (row : nat) : str :=
  map (fun col => if wall w h s (Z.of_nat col) (Z.of_nat row) then occ_marker else free_marker) (seq 0 (Z.to_nat w)).
Lemma wall_row_no_nl w h s i : ~ In nl (wall_row w h s i).
Proof. unfold wall_row. rewrite in_map_iff. intros (c & E & _). destruct (wall _ _ _ _ _); discriminate E. Qed.
Lemma wall_row_nonempty w h s i : 1 <= w -> wall_row w h s i <> [].
Proof. intros H. unfold wall_row. destruct (Z.to_nat w) eqn:E; [lia|]. discriminate. Qed.

Lemma map_seq_const {A} (f : nat -> A) a n k : (forall i, (a <= i < a + n)%nat -> f i = k) -> map f (seq a n) = repeat k n.
Proof.
  revert a. induction n as [|n IH]; intros a H; [reflexivity|]. cbn [seq map repeat]. rewrite H by lia. f_equal. apply IH. intros i Hi. apply H. lia.
Qed.

Lemma horiz_row_wall w h s i : 1 <= w -> 1 <= h -> (i < Z.to_nat h)%nat -> (s = STop \/ s = SBottom) ->
  horiz_row (Z.to_nat w) (Z.to_nat h) (side_bound s) i = wall_row w h s i ++ [nl].
Proof.
  intros Hw Hh Hi Hs. unfold horiz_row, wall_row.
  match goal with |- (if ?b then _ else _) = _ => destruct b eqn:Eb end.
  - f_equal. symmetry. apply map_seq_const. intros j Hj.
    replace (wall w h s (Z.of_nat j) (Z.of_nat i)) with true; [reflexivity|]. symmetry.
    destruct Hs as [-> | ->]; cbn [side_bound] in Eb; rewrite ?andb_true_r, ?andb_false_r, ?orb_false_r, ?orb_false_l in Eb; apply Nat.eqb_eq in Eb; cbn [wall].
    + replace (Z.of_nat i =? 0) with true by (symmetry; apply Z.eqb_eq; lia). rewrite orb_true_r. reflexivity.
    + replace (Z.of_nat i =? h - 1) with true by (symmetry; apply Z.eqb_eq; lia). rewrite orb_true_r. reflexivity.
  - rewrite app_comm_cons. f_equal. destruct (Z.to_nat w) as [|n] eqn:E; [lia|]. cbn [seq map].
    replace (S n - 1)%nat with n by lia. f_equal.
    + replace (wall w h s (Z.of_nat 0) (Z.of_nat i)) with true; [reflexivity|]. destruct Hs as [-> | ->]; reflexivity.
    + apply map_ext_in. intros j Hj. apply in_seq in Hj.
      replace (wall w h s (Z.of_nat j) (Z.of_nat i)) with (j =? n)%nat; [reflexivity|].
      assert (EN : (Z.of_nat j =? w - 1) = (j =? n)%nat) by (destruct (Z.eqb_spec (Z.of_nat j) (w - 1)), (Nat.eqb_spec j n); try lia; reflexivity).
      assert (E0 : (Z.of_nat j =? 0) = false) by (apply Z.eqb_neq; lia).
      destruct Hs as [-> | ->]; cbn [side_bound] in Eb; rewrite ?andb_true_r, ?andb_false_r, ?orb_false_r, ?orb_false_l in Eb; apply Nat.eqb_neq in Eb; cbn [wall]; rewrite EN, E0; cbn [orb].
      * replace (Z.of_nat i =? 0) with false by (symmetry; apply Z.eqb_neq; lia). rewrite orb_false_r. reflexivity.
      * replace (Z.of_nat i =? h - 1) with false by (symmetry; apply Z.eqb_neq; lia). rewrite orb_false_r. reflexivity.
Qed.

Lemma vert_row_wall w h s i : 1 <= w -> 1 <= h -> (1 <= i)%nat -> (i < Z.to_nat h - 1)%nat -> (s = SLeft \/ s = SRight) ->
  vert_row (Z.to_nat w) (Z.to_nat h) (side_bound s) i = wall_row w h s i ++ [nl].
Proof.
  intros Hw Hh Hi Hi' Hs. unfold vert_row, wall_row. rewrite (proj2 (Nat.eqb_neq i (Z.to_nat h - 1))) by lia. f_equal.
  apply map_ext_in. intros j Hj. apply in_seq in Hj.
  match goal with |- (if ?a then _ else _) = (if ?b then _ else _) => replace a with b; [reflexivity|] end.
  assert (E0 : (Z.of_nat i =? 0) = false) by (apply Z.eqb_neq; lia).
  assert (E1 : (Z.of_nat i =? h - 1) = false) by (apply Z.eqb_neq; lia).
  destruct Hs as [-> | ->]; cbn [side_bound wall]; rewrite E0, E1; cbn [orb];
    destruct (Z.eqb_spec (Z.of_nat j) 0), (Z.eqb_spec (Z.of_nat j) (w - 1)), (Nat.eqb_spec j 0), (Nat.eqb_spec j (Z.to_nat w - 1)), (Nat.eqb_spec (Z.to_nat w) 1); try lia; reflexivity.
Qed.
Lemma full_row w h s i : 1 <= w -> (s = SLeft \/ s = SRight) -> (i = 0%nat \/ Z.of_nat i = h - 1) ->
  wall_row w h s i = repeat occ_marker (Z.to_nat w).
Proof.
  intros Hw Hs Hi. unfold wall_row. apply map_seq_const. intros j _.
  replace (wall w h s (Z.of_nat j) (Z.of_nat i)) with true; [reflexivity|].
  destruct Hs as [-> | ->]; cbn [wall]; destruct Hi as [-> | Hi]; try reflexivity; rewrite (proj2 (Z.eqb_eq (Z.of_nat i) (h - 1)) Hi), orb_true_r; reflexivity.
Qed.

Theorem cecum_raster_spec w h s : 1 <= w -> 1 <= h ->
  exists text, cecum_raster w h (side_bound s) = Ok text /\ raster_lines text = map (wall_row w h s) (seq 0 (Z.to_nat h)).
Proof.
  intros Hw Hh. unfold cecum_raster. replace ((0 <? w) && (0 <? h)) with true by (symmetry; rewrite andb_true_iff, !Z.ltb_lt; lia). cbn [assert_ bind].
  assert (NE : forall l r, In r (map (wall_row w h s) l) -> r <> []) by (intros l r H; apply in_map_iff in H; destruct H as (i & <- & _); apply wall_row_nonempty; lia).
  assert (HH : (s = STop \/ s = SBottom) -> raster_lines (horiz_cecum (Z.to_nat w) (Z.to_nat h) (side_bound s)) = map (wall_row w h s) (seq 0 (Z.to_nat h))).
  { intros Hs. unfold horiz_cecum, raster_lines.
    assert (E : flat_map (horiz_row (Z.to_nat w) (Z.to_nat h) (side_bound s)) (seq 0 (Z.to_nat h)) = flat_map (fun i => wall_row w h s i ++ [nl]) (seq 0 (Z.to_nat h)) ++ []).
    { rewrite app_nil_r, !flat_map_concat_map. f_equal. apply map_ext_in. intros i Hi. apply in_seq in Hi. apply horiz_row_wall; try lia; exact Hs. }
    rewrite E, getlines_rows by (intros; apply wall_row_no_nl). cbn [getlines]. rewrite app_nil_r. apply until_empty_id, NE. }
  assert (HV : (s = SLeft \/ s = SRight) -> raster_lines (vert_cecum (Z.to_nat w) (Z.to_nat h) (side_bound s)) = map (wall_row w h s) (seq 0 (Z.to_nat h))).
  { intros Hs. unfold vert_cecum, raster_lines. rewrite <- (full_row w h s 0) by (auto; lia).
    destruct (Z.to_nat h) as [|n] eqn:En; [lia|]. replace (S n - 1)%nat with n by lia. change (seq 0 (S n)) with (0%nat :: seq 1 n).
    cbn [app map]. rewrite getlines_row by apply wall_row_no_nl.
    destruct n as [|k].
    - cbn [seq flat_map app map]. cbn [getlines]. rewrite (proj2 (Ascii.eqb_eq nl nl) eq_refl). cbn [until_empty].
      assert (X := wall_row_nonempty w h s 0 Hw). destruct (wall_row w h s 0); [contradiction|reflexivity].
    - rewrite seq_S, flat_map_app, map_app. cbn [flat_map map]. rewrite app_nil_r.
      assert (E : flat_map (vert_row (Z.to_nat w) (S (S k)) (side_bound s)) (seq 1 k) = flat_map (fun i => wall_row w h s i ++ [nl]) (seq 1 k)).
      { rewrite !flat_map_concat_map. f_equal. apply map_ext_in. intros i Hi. apply in_seq in Hi. rewrite <- En. apply vert_row_wall; try lia; exact Hs. }
      rewrite E. unfold vert_row at 1. replace (1 + k =? S (S k) - 1)%nat with true by (symmetry; apply Nat.eqb_eq; lia).
      rewrite <- (full_row w h s (1 + k)) by (auto; right; lia).
      rewrite <- app_assoc, getlines_rows by (intros; apply wall_row_no_nl). rewrite getlines_row by apply wall_row_no_nl. cbn [getlines].
      change [wall_row w h s (1 + k)] with (map (wall_row w h s) [(1 + k)%nat]). rewrite <- map_app.
      change (wall_row w h s 0 :: map (wall_row w h s) (seq 1 k ++ [(1 + k)%nat])) with (map (wall_row w h s) (0%nat :: seq 1 k ++ [(1 + k)%nat])).
      apply until_empty_id, NE. }
  destruct s; cbn [side_bound] in *; (eexists; split; [reflexivity|]); auto.
Qed.
