(** Refinement of the plain maps to total functions (C05, C06, C07). *)
From Coq Require Import Reals ZArith List Lia Bool.
From Verif.Base Require Import Outcome Num.
From Verif.Model Require Import MathUtils Geometry Grid PlainMap.
From Verif.Spec Require Import MapSpec.
From Verif.Proofs Require Import GrowthProofs.
Import ListNotations.
Local Open Scope Z_scope.

Section Lists.
  Context {A : Type}.
  Lemma set_nth_length (l : list A) n a : length (set_nth l n a) = length l.
  Proof. revert n; induction l; intros [|n]; cbn; auto. Qed.
  Lemma nth_error_set_nth (l : list A) n a i :
    nth_error (set_nth l n a) i =
    if Nat.eqb i n then (if Nat.ltb n (length l) then Some a else None) else nth_error l i.
  Proof.
    revert n i; induction l as [|x l IH]; intros n i.
    - cbn. destruct i, n; cbn; auto. destruct (Nat.eqb i n); auto.
    - destruct n as [|n], i as [|i]; cbn; auto. rewrite IH. destruct (Nat.eqb i n); auto.
  Qed.
  Lemma znth_Some_range (l : list A) i a : znth l i = Some a -> 0 <= i < Z.of_nat (length l).
  Proof.
    unfold znth. destruct (Z.ltb_spec i 0); [discriminate|]. intros H1.
    assert (Z.to_nat i < length l)%nat by (apply nth_error_Some; congruence). lia.
  Qed.
  Lemma znth_inside (l : list A) i : 0 <= i < Z.of_nat (length l) -> exists a, znth l i = Some a.
  Proof.
    intros H. unfold znth. destruct (Z.ltb_spec i 0); [lia|].
    destruct (nth_error l (Z.to_nat i)) eqn:E; eauto. apply nth_error_None in E. lia.
  Qed.
  Lemma znth_zset (l : list A) i j a : 0 <= i < Z.of_nat (length l) ->
    znth (zset l i a) j = if j =? i then Some a else znth l j.
  Proof.
    intros H. unfold znth, zset. destruct (Z.ltb_spec j 0).
    - destruct (Z.eqb_spec j i); auto; lia.
    - rewrite nth_error_set_nth. destruct (Z.eqb_spec j i).
      + subst. rewrite Nat.eqb_refl. destruct (Nat.ltb_spec (Z.to_nat i) (length l)); auto; lia.
      + destruct (Nat.eqb_spec (Z.to_nat j) (Z.to_nat i)); auto; lia.
  Qed.
  Lemma zset_length (l : list A) i a : length (zset l i a) = length l.
  Proof. apply set_nth_length. Qed.
  Lemma znth_repeat (a : A) n i : 0 <= i < Z.of_nat n -> znth (repeat a n) i = Some a.
  Proof.
    intros H. unfold znth. destruct (Z.ltb_spec i 0); [lia|]. apply nth_error_repeat. lia.
  Qed.
  Lemma znth_app (l l' : list A) i : 0 <= i ->
    znth (l ++ l') i = if i <? Z.of_nat (length l) then znth l i else znth l' (i - Z.of_nat (length l)).
  Proof.
    intros H. unfold znth. destruct (Z.ltb_spec i 0); [lia|].
    destruct (Z.ltb_spec i (Z.of_nat (length l))).
    - rewrite nth_error_app1; auto. lia.
    - destruct (Z.ltb_spec (i - Z.of_nat (length l)) 0); [lia|]. rewrite nth_error_app2 by lia. f_equal. lia.
  Qed.
  Lemma znth_In (l : list A) i a : znth l i = Some a -> In a l.
  Proof. unfold znth. destruct (i <? 0); [discriminate|]. apply nth_error_In. Qed.
  Lemma In_zset (l : list A) i a x : In x (zset l i a) -> x = a \/ In x l.
  Proof.
    unfold zset. generalize (Z.to_nat i). clear i.
    induction l as [|y l IH]; intros [|n]; cbn; auto.
    - intros [H|H]; auto.
    - intros [H|H]; auto. destruct (IH _ H); auto.
  Qed.
End Lists.

Section PM.
  Context {C Ob : Type}.
  Variable cell_upd : C -> Ob -> C.
  Notation pmap := (pmap C).

  (** rectangular storage *)
  Definition shape (m : pmap) : Prop :=
    1 <= p_w m /\ 1 <= p_h m /\ Z.of_nat (length (p_cells m)) = p_h m /\
    Forall (fun row => Z.of_nat (length row) = p_w m) (p_cells m).

  Definition cat (cells : list (list C)) (x y : Z) : option C :=
    match znth cells y with None => None | Some row => znth row x end.

  Lemma cell_internal_cat m ic :
    cell_internal m ic = match cat (p_cells m) (cx ic) (cy ic) with None => UB | Some c => Ok c end.
  Proof. unfold cell_internal, cat. destruct (znth (p_cells m) (cy ic)); auto. Qed.

  Lemma has_internal_iff w h ic : has_internal_cell w h ic = true <-> 0 <= cx ic < w /\ 0 <= cy ic < h.
  Proof. unfold has_internal_cell. rewrite !andb_true_iff, !Z.leb_le, !Z.ltb_lt. lia. Qed.

  Lemma cat_inside m x y : shape m -> 0 <= x < p_w m -> 0 <= y < p_h m ->
    exists c, cat (p_cells m) x y = Some c.
  Proof.
    intros (Hw & Hh & HL & HF) Hx Hy. unfold cat.
    destruct (znth_inside (p_cells m) y) as [row Hr]; [lia|]. rewrite Hr.
    assert (Z.of_nat (length row) = p_w m).
    { rewrite Forall_forall in HF. apply HF. eapply znth_In; eauto. }
    apply znth_inside. lia.
  Qed.

  Lemma set_internal_spec m ic v : shape m -> has_internal_cell (p_w m) (p_h m) ic = true ->
    exists m', set_internal m ic v = Ok m' /\ shape m' /\ p_w m' = p_w m /\ p_h m' = p_h m /\
      p_origin m' = p_origin m /\ p_proto m' = p_proto m /\
      forall x y, cat (p_cells m') x y = if (x =? cx ic) && (y =? cy ic) then Some v else cat (p_cells m) x y.
  Proof.
    intros HS HI. apply has_internal_iff in HI. destruct HI as [Hx Hy].
    destruct HS as (Hw & Hh & HL & HF).
    unfold set_internal. destruct (znth_inside (p_cells m) (cy ic)) as [row Hr]; [lia|]. rewrite Hr.
    assert (HR : Z.of_nat (length row) = p_w m).
    { rewrite Forall_forall in HF. apply HF. eapply znth_In; eauto. }
    destruct (znth_inside row (cx ic)) as [c0 Hc0]; [lia|]. rewrite Hc0.
    eexists. split; [reflexivity|]. cbn. split.
    { unfold shape. cbn. rewrite zset_length. repeat split; auto.
      rewrite Forall_forall. intros r Hin. apply In_zset in Hin. destruct Hin as [->|Hin].
      - rewrite zset_length. auto.
      - rewrite Forall_forall in HF. auto. }
    repeat (split; [reflexivity|]).
    intros x y. unfold cat. rewrite znth_zset by lia.
    destruct (Z.eqb_spec y (cy ic)) as [->|Hne].
    - rewrite Hr, andb_true_r. rewrite znth_zset by lia. reflexivity.
    - rewrite andb_false_r. reflexivity.
  Qed.

  (** *** reading *)
  Definition reads (m : pmap) (f : tmap C) : Prop := forall c, unb_get m c = Ok (f c).

  Lemma unb_get_cat m c : shape m -> unb_get m c =
    let ic := external2internal (p_origin m) c in
    if has_internal_cell (p_w m) (p_h m) ic
    then match cat (p_cells m) (cx ic) (cy ic) with Some v => Ok v | None => UB end else Ok (p_proto m).
  Proof. intros HS. unfold unb_get. rewrite cell_internal_cat. reflexivity. Qed.

  Lemma write_reads m f c v : shape m -> reads m f ->
    has_internal_cell (p_w m) (p_h m) (external2internal (p_origin m) c) = true ->
    exists m', set_internal m (external2internal (p_origin m) c) v = Ok m' /\ shape m' /\
      reads m' (t_write f c v) /\ p_w m' = p_w m /\ p_h m' = p_h m /\ p_origin m' = p_origin m /\
      p_proto m' = p_proto m.
  Proof.
    intros HS HR HI. destruct (set_internal_spec m _ v HS HI) as (m' & E & HS' & Ew & Eh & Eo & Ep & HC).
    exists m'. split; [exact E|]. split; [exact HS'|]. repeat (split; auto).
    intros c'. specialize (HR c'). rewrite unb_get_cat in * by auto. cbn zeta in *.
    rewrite Ew, Eh, Eo, Ep, HC. unfold t_write.
    destruct (coord_eq_dec c' c) as [->|Hne].
    - rewrite HI, !Z.eqb_refl. reflexivity.
    - destruct (has_internal_cell _ _ (external2internal (p_origin m) c')) eqn:HI'; auto.
      destruct ((cx (external2internal (p_origin m) c') =? cx (external2internal (p_origin m) c)) &&
                (cy (external2internal (p_origin m) c') =? cy (external2internal (p_origin m) c))) eqn:E2; auto.
      exfalso. apply Hne. apply andb_true_iff in E2. rewrite !Z.eqb_eq in E2.
      destruct c, c'; unfold external2internal, coord_add, cx, cy in E2; cbn in E2. f_equal; lia.
  Qed.

  (** *** growth *)
  Lemma splice_row_spec prep (row base : list C) : 0 <= prep -> prep < Z.of_nat (length base) ->
    prep + Z.of_nat (length row) <= Z.of_nat (length base) ->
    exists r, splice_row prep row base = Ok r /\ length r = length base /\
      forall x, 0 <= x -> znth r x = if (x <? prep) || (prep + Z.of_nat (length row) <=? x)
                                    then znth base x else znth row (x - prep).
  Proof.
    intros H0 H1 H2. unfold splice_row.
    destruct (Z.ltb_spec prep (Z.of_nat (length base))); [|lia].
    destruct (Z.leb_spec (prep + Z.of_nat (length row)) (Z.of_nat (length base))); [|lia]. cbn [andb].
    eexists. split; [reflexivity|].
    assert (HL : length (firstn (Z.to_nat prep) base) = Z.to_nat prep) by (rewrite firstn_length; lia).
    split.
    { rewrite !app_length, HL, skipn_length. lia. }
    intros x Hx. rewrite znth_app, HL by lia.
    destruct (Z.ltb_spec x (Z.of_nat (Z.to_nat prep))).
    - destruct (Z.ltb_spec x prep); [|lia]. cbn [orb]. unfold znth.
      destruct (Z.ltb_spec x 0); [lia|].
      rewrite <- (firstn_skipn (Z.to_nat prep) base) at 2. rewrite nth_error_app1; auto.
      rewrite HL. lia.
    - destruct (Z.ltb_spec x prep); [lia|]. cbn [orb]. rewrite znth_app by lia.
      rewrite Z2Nat.id by lia.
      destruct (Z.ltb_spec (x - prep) (Z.of_nat (length row))).
      + destruct (Z.leb_spec (prep + Z.of_nat (length row)) x); [lia|]. reflexivity.
      + destruct (Z.leb_spec (prep + Z.of_nat (length row)) x); [|lia].
        unfold znth. destruct (Z.ltb_spec (x - prep - Z.of_nat (length row)) 0); [lia|].
        destruct (Z.ltb_spec x 0); [lia|].
        rewrite <- (firstn_skipn (Z.to_nat prep + length row) base) at 2.
        rewrite nth_error_app2; rewrite firstn_length; [f_equal; lia|lia].
  Qed.

  Lemma grown_rows_spec old (proto : C) new_w px py h n : forall y,
    (forall i, 0 <= i < Z.of_nat n -> exists r, grown_row old proto new_w px py h (y + i) = Ok r) ->
    exists rows, grown_rows old proto new_w px py h y n = Ok rows /\ length rows = n /\
      forall i, 0 <= i < Z.of_nat n -> exists r, grown_row old proto new_w px py h (y + i) = Ok r /\
                 znth rows i = Some r.
  Proof.
    induction n as [|n IH]; intros y H.
    - exists []. cbn. repeat split; auto. intros; lia.
    - destruct (H 0) as [r Hr]; [lia|]. rewrite Z.add_0_r in Hr.
      destruct (IH (y + 1)) as (rows & E & HL & HN).
      { intros i Hi. destruct (H (i + 1)) as [r' Hr']; [lia|]. exists r'. rewrite <- Hr'. f_equal. lia. }
      exists (r :: rows). cbn. rewrite Hr. cbn. rewrite E. cbn. split; auto. split; [lia|].
      intros i Hi. destruct (Z.eq_dec i 0) as [->|Hi0].
      + exists r. rewrite Z.add_0_r. auto.
      + destruct (HN (i - 1)) as (r' & Hr' & Hn); [lia|]. exists r'. split.
        * rewrite <- Hr'. f_equal. lia.
        * change (r :: rows) with ([r] ++ rows). rewrite znth_app by lia. cbn [length].
          destruct (Z.ltb_spec i (Z.of_nat 1)); [lia|]. rewrite <- Hn. f_equal.
  Qed.

  Lemma grown_row_spec m new_w px py y : shape m -> 0 <= px -> 0 <= py ->
    px + p_w m <= new_w -> 0 <= y ->
    exists r, grown_row (p_cells m) (p_proto m) new_w px py (p_h m) y = Ok r /\
      Z.of_nat (length r) = new_w /\
      forall x, 0 <= x < new_w -> znth r x =
        if has_internal_cell (p_w m) (p_h m) (x - px, y - py) then cat (p_cells m) (x - px) (y - py)
        else Some (p_proto m).
  Proof.
    intros HS Hpx Hpy Hw Hy. assert (HS' := HS). destruct HS' as (H1 & H2 & HL & HF).
    unfold grown_row.
    destruct (Z.ltb_spec y py); cbn [orb].
    { eexists. split; [reflexivity|]. rewrite repeat_length. split; [lia|].
      intros x Hx. rewrite znth_repeat by lia.
      destruct (has_internal_cell _ _ _) eqn:E; auto. apply has_internal_iff in E; cbn in E; lia. }
    destruct (Z.leb_spec (py + p_h m) y).
    { eexists. split; [reflexivity|]. rewrite repeat_length. split; [lia|].
      intros x Hx. rewrite znth_repeat by lia.
      destruct (has_internal_cell _ _ _) eqn:E; auto. apply has_internal_iff in E; cbn in E; lia. }
    destruct (znth_inside (p_cells m) (y - py)) as [row Hr]; [lia|]. rewrite Hr.
    assert (HR : Z.of_nat (length row) = p_w m).
    { rewrite Forall_forall in HF. apply HF. eapply znth_In; eauto. }
    destruct (splice_row_spec px row (repeat (p_proto m) (Z.to_nat new_w))) as (r & E & HLr & Hn);
      try rewrite repeat_length; try lia.
    rewrite E. exists r. split; auto. rewrite repeat_length in HLr. split; [lia|].
    intros x Hx. rewrite Hn by lia. rewrite znth_repeat by lia. rewrite HR.
    unfold cat. rewrite Hr.
    destruct (has_internal_cell _ _ _) eqn:EI.
    - apply has_internal_iff in EI; cbn in EI.
      destruct (Z.ltb_spec x px); [lia|]. destruct (Z.leb_spec (px + p_w m) x); [lia|]. reflexivity.
    - destruct (Z.ltb_spec x px); auto. destruct (Z.leb_spec (px + p_w m) x); auto.
      exfalso. assert (has_internal_cell (p_w m) (p_h m) (x - px, y - py) = true); [|congruence].
      apply has_internal_iff; cbn; lia.
  Qed.

  (** per-axis: cells to prepend/append, before the reserve is added *)
  Lemma determine_spec v n : 1 <= n -> - 2^31 < v < 2^31 -> n < 2^31 ->
    exists prep app, determine_cells_nm 0 v n = Ok (prep, app) /\ 0 <= prep < 2^31 /\ 0 <= app < 2^31 /\
      (prep = 0 \/ app = 0) /\ 0 <= v + prep < n + prep + app /\
      (0 < prep -> prep = - v) /\ (0 < app -> app = v - n + 1).
  Proof.
    intros Hn Hv Hn2. unfold determine_cells_nm.
    destruct (Z.leb_spec 0 n); [|lia]. cbn [assert_ bind].
    assert (P : 2 ^ 32 = 2 * 2 ^ 31) by reflexivity.
    destruct (Z.ltb_spec v 0).
    - exists (0 - v), 0. rewrite u32_id by lia. repeat split; auto; lia.
    - destruct (Z.leb_spec n v).
      + exists 0, (v - n + 1). rewrite u32_id by lia. repeat split; auto; lia.
      + exists 0, 0. repeat split; auto; lia.
  Qed.

  Lemma axis_grow_intro o n c prep app prep' app' n' :
    1 <= n -> 0 <= prep -> 0 <= app -> (prep = 0 \/ app = 0) ->
    (0 < prep -> prep = - (c + o)) -> (0 < app -> app = c + o - n + 1) ->
    0 <= c + o + prep < n + prep + app ->
    n' = prep' + n + app' -> prep <= prep' -> app <= app' -> (prep = 0 -> prep' = 0) -> (app = 0 -> app' = 0) ->
    5 * n' <= Z.max (5 * (prep + n + app)) (6 * n) ->
    n' = n \/ prep <> 0 \/ app <> 0 ->
    axis_grow o n c (o + prep') n'.
  Proof.
    intros. unfold axis_grow.
    destruct (Z.eq_dec prep 0) as [E1|E1], (Z.eq_dec app 0) as [E2|E2];
      repeat split; intros; try lia.
  Qed.

  Lemma ensure_inside_spec (m : pmap) (c : coord) : shape m -> p_w m < 2^31 -> p_h m < 2^31 ->
    0 <= cx (p_origin m) < 2^31 -> 0 <= cy (p_origin m) < 2^31 ->
    -2^31 < cx c + cx (p_origin m) < 2^31 -> -2^31 < cy c + cy (p_origin m) < 2^31 ->
    (cx c + cx (p_origin m) < 0 \/ p_w m <= cx c + cx (p_origin m) -> Z.max (5 * (p_w m - (cx c + cx (p_origin m)))) (Z.max (5 * (cx c + cx (p_origin m) + 1)) (6 * p_w m)) < 5 * 2^31) ->
    (cy c + cy (p_origin m) < 0 \/ p_h m <= cy c + cy (p_origin m) -> Z.max (5 * (p_h m - (cy c + cy (p_origin m)))) (Z.max (5 * (cy c + cy (p_origin m) + 1)) (6 * p_h m)) < 5 * 2^31) ->
    exists m', ensure_inside (ops := FOps) m c = Ok m' /\ shape m' /\
      (forall d, unb_get m' d = unb_get m d) /\ p_proto m' = p_proto m /\
      axis_grow (cx (p_origin m)) (p_w m) (cx c) (cx (p_origin m')) (p_w m') /\
      axis_grow (cy (p_origin m)) (p_h m) (cy c) (cy (p_origin m')) (p_h m') /\
      p_w m' < 2^31 /\ p_h m' < 2^31.
  Proof.
    intros HS Hw31 Hh31 Hox Hoy Hcx Hcy Bx By.
    assert (HS' := HS). destruct HS' as (Hw & Hh & HL & HF).
    assert (P : 2 ^ 32 = 2 * 2 ^ 31) by reflexivity.
    unfold ensure_inside. cbv zeta.
    destruct (has_internal_cell (p_w m) (p_h m) (external2internal (p_origin m) c)) eqn:HI.
    { exists m. apply has_internal_iff in HI. cbn in HI.
      unfold axis_grow. repeat split; auto; lia. }
    set (vx := cx c + cx (p_origin m)) in *. set (vy := cy c + cy (p_origin m)) in *.
    change (cx (external2internal (p_origin m) c)) with vx.
    change (cy (external2internal (p_origin m) c)) with vy.
    rewrite !(u32_id (p_w m)), !(u32_id (p_h m)) by lia. rewrite !wrap32_id by lia.
    destruct (determine_spec vx (p_w m)) as (px & ax & Ex & Hpx & Hax & Hzx & Hinx & Hpx1 & Hax1); [lia|lia|lia|].
    destruct (determine_spec vy (p_h m)) as (py & ay & Ey & Hpy & Hay & Hzy & Hiny & Hpy1 & Hay1); [lia|lia|lia|].
    rewrite Ex. cbn [bind]. rewrite Ey. cbn [bind].
    assert (Hnx : px + p_w m + ax < 2^31).
    { destruct (Z.eq_dec px 0), (Z.eq_dec ax 0); lia. }
    assert (Hny : py + p_h m + ay < 2^31).
    { destruct (Z.eq_dec py 0), (Z.eq_dec ay 0); lia. }
    rewrite (u32_id (px + p_w m + ax)), (u32_id (py + p_h m + ay)) by lia.
    destruct (update_dim_F64 (p_w m) px ax) as (nw & px' & ax' & Eux & Hnw & Hpxx & Haxx & Hpz & Haz & H5x); try lia.
    destruct (update_dim_F64 (p_h m) py ay) as (nh & py' & ay' & Euy & Hnh & Hpyy & Hayy & Hpzy & Hazy & H5y); try lia.
    rewrite Eux. cbn [bind]. rewrite Euy. cbn [bind].
    assert (Hnw31 : nw < 2^31).
    { clear - Bx H5x Hnx Hpx Hax Hpx1 Hax1 Hnw Hpz Haz.
      destruct (Z.eq_dec px 0), (Z.eq_dec ax 0); [rewrite Hnw, (Hpz e), (Haz e0); lia|lia|lia|lia]. }
    assert (Hnh31 : nh < 2^31).
    { clear - By H5y Hny Hpy Hay Hpy1 Hay1 Hnh Hpzy Hazy.
      destruct (Z.eq_dec py 0), (Z.eq_dec ay 0); [rewrite Hnh, (Hpzy e), (Hazy e0); lia|lia|lia|lia]. }
    assert (AGx : axis_grow (cx (p_origin m)) (p_w m) (cx c) (cx (p_origin m) + px') nw).
    { clear - Hw Hpx Hax Hzx Hpx1 Hax1 Hinx Hnw Hpxx Haxx Hpz Haz H5x. subst vx.
      apply (axis_grow_intro _ _ _ px ax px' ax'); try assumption; lia. }
    assert (AGy : axis_grow (cy (p_origin m)) (p_h m) (cy c) (cy (p_origin m) + py') nh).
    { clear - Hh Hpy Hay Hzy Hpy1 Hay1 Hiny Hnh Hpyy Hayy Hpzy Hazy H5y. subst vy.
      apply (axis_grow_intro _ _ _ py ay py' ay'); try assumption; lia. }
    assert (Hix : 0 <= cx c + (cx (p_origin m) + px') < nw) by apply AGx.
    assert (Hiy : 0 <= cy c + (cy (p_origin m) + py') < nh) by apply AGy.
    clear Hzx Hpx1 Hax1 Hinx Hpz Haz H5x Hzy Hpy1 Hay1 Hiny Hpzy Hazy H5y Bx By Ex Ey Eux Euy.
    destruct (grown_rows_spec (p_cells m) (p_proto m) nw px' py' (p_h m) (Z.to_nat nh) 0) as (rows & Er & HLr & Hrows).
    { intros i Hi. destruct (grown_row_spec m nw px' py' (0 + i)) as (r & Hr & _); auto; try lia. eauto. }
    rewrite Er. cbn [bind].
    rewrite (wrap32_id nw), (wrap32_id nh), (wrap32_id px'), (wrap32_id py') by lia.
    set (m' := mkPMap _ _ _ _ _).
    assert (HI' : has_internal_cell (p_w m') (p_h m') (external2internal (p_origin m') c) = true).
    { apply has_internal_iff. cbn. split; assumption. }
    rewrite HI'. cbn [assert_ bind].
    exists m'. split; [reflexivity|].
    assert (HS' : shape m').
    { unfold shape. cbn. repeat split; try lia. rewrite Forall_forall. intros r Hin.
      apply In_nth_error in Hin. destruct Hin as [k Hk].
      assert (k < length rows)%nat by (apply nth_error_Some; congruence).
      destruct (Hrows (Z.of_nat k)) as (r' & Hr' & Hn'); [lia|].
      unfold znth in Hn'. destruct (Z.ltb_spec (Z.of_nat k) 0); [lia|]. rewrite Nat2Z.id, Hk in Hn'.
      inversion Hn'; subst r'.
      destruct (grown_row_spec m nw px' py' (0 + Z.of_nat k)) as (r2 & Hr2 & HL2 & _); auto; try lia.
      congruence. }
    split; [exact HS'|]. split.
    { intros d. rewrite (unb_get_cat m') by auto. rewrite (unb_get_cat m) by auto. cbv zeta.
      assert (HC : has_internal_cell (p_w m') (p_h m') (external2internal (p_origin m') d) = true ->
        cat (p_cells m') (cx (external2internal (p_origin m') d)) (cy (external2internal (p_origin m') d)) =
        if has_internal_cell (p_w m) (p_h m) (external2internal (p_origin m) d)
        then cat (p_cells m) (cx (external2internal (p_origin m) d)) (cy (external2internal (p_origin m) d))
        else Some (p_proto m)).
      { intros HId. apply has_internal_iff in HId. cbn in HId.
        unfold cat at 1. cbn.
        destruct (Hrows (cy d + (cy (p_origin m) + py'))) as (r & Hr & Hn); [unfold cy in *; lia|].
        cbn in Hr.
        destruct (grown_row_spec m nw px' py' (cy d + (cy (p_origin m) + py'))) as (r2 & Hr2 & HL2 & Hx2); auto; try (unfold cy in *; lia).
        assert (r2 = r) by congruence. subst r2. unfold cy, cx in Hn |- *. cbn in Hn |- *. rewrite Hn.
        rewrite Hx2 by (unfold cx in *; lia).
        replace (fst d + (fst (p_origin m) + px') - px') with (fst d + fst (p_origin m)) by (unfold cx; lia).
        replace (cy d + (cy (p_origin m) + py') - py') with (snd d + snd (p_origin m)) by (unfold cy; lia).
        reflexivity. }
      destruct (has_internal_cell (p_w m') (p_h m') (external2internal (p_origin m') d)) eqn:HId.
      - rewrite HC by auto.
        destruct (has_internal_cell (p_w m) (p_h m) (external2internal (p_origin m) d)); reflexivity.
      - destruct (has_internal_cell (p_w m) (p_h m) (external2internal (p_origin m) d)) eqn:HIo; auto.
        exfalso. assert (has_internal_cell (p_w m') (p_h m') (external2internal (p_origin m') d) = true); [|congruence].
        apply has_internal_iff in HIo. apply has_internal_iff. cbn in HIo |- *. lia. }
    split; [reflexivity|].
    split; [exact AGx|]. split; [exact AGy|]. split; assumption.
  Qed.

  (** *** runs of the unbounded map *)
  (** extents to the left/right of the external origin stay below [2M+k] *)
  Definition axis_ok (B o n : Z) : Prop := 0 <= o <= B /\ 1 <= n - o + 0 + o /\ 0 <= n - o <= B.

  Lemma axis_grow_ok M k o n c o' n' : 0 <= M -> 1 <= k -> -M <= c <= M ->
    axis_ok (2 * M + k) o n -> axis_grow o n c o' n' -> axis_ok (2 * M + k) o' n'.
  Proof.
    unfold axis_ok, axis_grow. intros HM Hk Hc (H1 & H2 & H3) (G1 & G2 & G3 & G4 & G5 & G6).
    destruct (Z_lt_ge_dec (c + o) 0) as [L|L].
    - destruct (G5 L). lia.
    - destruct (Z_lt_ge_dec (c + o) n) as [L'|L'].
      + destruct G4; lia.
      + destruct G6; lia.
  Qed.

  Definition pinv (B : Z) (m : pmap) (f : tmap C) : Prop :=
    shape m /\ reads m f /\ axis_ok B (cx (p_origin m)) (p_w m) /\ axis_ok B (cy (p_origin m)) (p_h m).

  Lemma unb_step_inv M k m f op : 0 <= M -> 1 <= k -> 5 * (2 * (2 * M + k)) + 5 <= 5 * 2^31 ->
    within M (w_coord (op_write op)) -> pinv (2 * M + k) m f ->
    exists m', unb_step (ops := FOps) cell_upd m op = Ok m' /\ pinv (2 * M + k) m' (t_step cell_upd f (op_write op)).
  Proof.
    intros HM Hk HB Hc (HS & HR & AX & AY).
    assert (HS' := HS). destruct HS' as (Hw & Hh & _).
    set (c := w_coord (op_write op)) in *. destruct Hc as [Hcx Hcy].
    change (fst c) with (cx c) in Hcx. change (snd c) with (cy c) in Hcy.
    destruct (ensure_inside_spec m c) as (m1 & E1 & HS1 & HR1 & HP1 & GX & GY & B1 & B2).
    { exact HS. }
    1-8: unfold axis_ok in AX, AY; try lia.
    assert (HRm1 : reads m1 f) by (intros d; rewrite HR1; apply HR).
    assert (HI1 : has_internal_cell (p_w m1) (p_h m1) (external2internal (p_origin m1) c) = true).
    { apply has_internal_iff. split; [apply GX | apply GY]. }
    assert (AX1 := axis_grow_ok M k _ _ _ _ _ HM Hk Hcx AX GX).
    assert (AY1 := axis_grow_ok M k _ _ _ _ _ HM Hk Hcy AY GY).
    destruct op as [c0 o|c0 v]; subst c; cbn [op_write w_coord] in *; cbn [unb_step t_step op_write].
    - unfold unb_update. rewrite E1. cbn [bind]. rewrite HRm1. cbn [bind].
      destruct (write_reads m1 f c0 (cell_upd (f c0) o) HS1 HRm1 HI1) as (m2 & E2 & HS2 & HR2 & Ew & Eh & Eo & _).
      exists m2. split; [exact E2|]. unfold pinv. rewrite Ew, Eh, Eo. auto.
    - unfold unb_reset. rewrite E1. cbn [bind]. unfold plain_reset.
      destruct (write_reads m1 f c0 v HS1 HRm1 HI1) as (m2 & E2 & HS2 & HR2 & Ew & Eh & Eo & _).
      exists m2. split; [exact E2|]. unfold pinv. rewrite Ew, Eh, Eo. auto.
  Qed.

  Lemma unb_run_inv M k ops : 0 <= M -> 1 <= k -> 5 * (2 * (2 * M + k)) + 5 <= 5 * 2^31 ->
    forall m f, (forall op, In op ops -> within M (w_coord (op_write op))) -> pinv (2 * M + k) m f ->
    exists m', unb_run (ops := FOps) cell_upd m ops = Ok m' /\
      pinv (2 * M + k) m' (t_run cell_upd f (map op_write ops)).
  Proof.
    intros HM Hk HB. induction ops as [|op ops IH]; intros m f Hin HI.
    - exists m. split; auto.
    - destruct (unb_step_inv M k m f op) as (m1 & E1 & H1); auto.
      { apply Hin. left; auto. }
      destruct (IH m1 _ (fun o Ho => Hin o (or_intror Ho)) H1) as (m2 & E2 & H2).
      exists m2. cbn [unb_run]. rewrite E1. cbn [bind]. split; [exact E2|]. exact H2.
  Qed.

  Lemma pmap_new_shape (proto : C) w h : 1 <= w -> 1 <= h -> shape (pmap_new proto w h).
  Proof.
    intros. unfold shape, pmap_new. cbn. rewrite repeat_length. repeat split; auto; try lia.
    rewrite Forall_forall. intros r Hr. apply repeat_spec in Hr. subst. rewrite repeat_length. lia.
  Qed.
  Lemma pmap_new_cat (proto : C) w h x y : 0 <= x < w -> 0 <= y < h ->
    cat (p_cells (pmap_new proto w h)) x y = Some proto.
  Proof.
    intros. unfold cat, pmap_new. cbn. rewrite znth_repeat by lia. apply znth_repeat. lia.
  Qed.
  Lemma pmap_new_reads (proto : C) w h : 1 <= w -> 1 <= h -> reads (pmap_new proto w h) (t_init proto).
  Proof.
    intros Hw Hh c. rewrite unb_get_cat by (apply pmap_new_shape; auto). cbv zeta.
    destruct (has_internal_cell _ _ _) eqn:E; auto. apply has_internal_iff in E.
    rewrite pmap_new_cat; auto; apply E.
  Qed.
  Lemma pmap_new_pinv (proto : C) w h M k : 0 <= M -> 1 <= w <= k -> 1 <= h <= k ->
    pinv (2 * M + k) (pmap_new proto w h) (t_init proto).
  Proof.
    intros HM Hw Hh. split; [apply pmap_new_shape; lia|]. split; [apply pmap_new_reads; lia|].
    assert (0 <= Z.quot w 2 <= w) by (split; [apply Z.quot_pos; lia|apply Z.quot_le_upper_bound; lia]).
    assert (0 <= Z.quot h 2 <= h) by (split; [apply Z.quot_pos; lia|apply Z.quot_le_upper_bound; lia]).
    unfold axis_ok. cbn [pmap_new p_origin default_origin p_w p_h cx cy fst snd]. lia.
  Qed.

  Theorem unbounded_plain_refines (proto : C) w h M ops :
    1 <= w -> 1 <= h -> 0 <= M -> 4 * M + 2 * Z.max w h < 2^31 ->
    (forall op, In op ops -> within M (w_coord (op_write op))) ->
    exists m, unb_run (ops := FOps) cell_upd (pmap_new proto w h) ops = Ok m /\
      (forall c, unb_get m c = Ok (t_run cell_upd (t_init proto) (map op_write ops) c)) /\
      p_w m <= 4 * M + 2 * Z.max w h /\ p_h m <= 4 * M + 2 * Z.max w h.
  Proof.
    intros Hw Hh HM HB Hin.
    destruct (unb_run_inv M (Z.max w h) ops HM) with (m := pmap_new proto w h) (f := t_init (C := C) proto)
      as (m & E & HS & HR & AX & AY); auto; try lia.
    { apply pmap_new_pinv; lia. }
    exists m. split; [exact E|]. split; [exact HR|]. unfold axis_ok in AX, AY. lia.
  Qed.

  (** *** the bounded map *)
  Definition binv (w h : Z) (proto : C) (m : pmap) (f : tmap C) : Prop :=
    shape m /\ reads m f /\ p_w m = w /\ p_h m = h /\ p_origin m = (w / 2, h / 2) /\ p_proto m = proto.

  Lemma binside_internal w h (m : pmap) c : p_w m = w -> p_h m = h -> p_origin m = (w / 2, h / 2) ->
    (has_internal_cell (p_w m) (p_h m) (external2internal (p_origin m) c) = true <-> binside w h c).
  Proof.
    intros -> -> ->. rewrite has_internal_iff. unfold binside, external2internal, coord_add, cx, cy. cbn [fst snd]. lia.
  Qed.

  Lemma plain_step_inv w h proto m f op : binside w h (w_coord (op_write op)) -> binv w h proto m f ->
    exists m', plain_step cell_upd m op = Ok m' /\ binv w h proto m' (t_step cell_upd f (op_write op)).
  Proof.
    intros Hc (HS & HR & Ew & Eh & Eo & Ep).
    destruct op as [c o|c v]; cbn [op_write w_coord] in Hc; cbn [plain_step op_write t_step].
    - assert (HI := proj2 (binside_internal w h m c Ew Eh Eo) Hc).
      unfold plain_update, plain_get. rewrite HI. cbn [assert_ bind].
      assert (HRc := HR c). unfold unb_get in HRc. rewrite HI in HRc. rewrite HRc. cbn [bind].
      destruct (write_reads m f c (cell_upd (f c) o) HS HR HI) as (m2 & E2 & HS2 & HR2 & Ew2 & Eh2 & Eo2 & Ep2).
      exists m2. split; [exact E2|]. unfold binv. rewrite Ew2, Eh2, Eo2, Ep2. auto 10.
    - assert (HI := proj2 (binside_internal w h m c Ew Eh Eo) Hc).
      destruct (write_reads m f c v HS HR HI) as (m2 & E2 & HS2 & HR2 & Ew2 & Eh2 & Eo2 & Ep2).
      exists m2. split; [exact E2|]. unfold binv. rewrite Ew2, Eh2, Eo2, Ep2. auto 10.
  Qed.

  Lemma plain_run_inv w h proto ops : forall m f,
    (forall op, In op ops -> binside w h (w_coord (op_write op))) -> binv w h proto m f ->
    exists m', plain_run cell_upd m ops = Ok m' /\ binv w h proto m' (t_run cell_upd f (map op_write ops)).
  Proof.
    induction ops as [|op ops IH]; intros m f Hin HI.
    - exists m. split; auto.
    - destruct (plain_step_inv w h proto m f op) as (m1 & E1 & H1); auto.
      { apply Hin. left; auto. }
      destruct (IH m1 _ (fun o Ho => Hin o (or_intror Ho)) H1) as (m2 & E2 & H2).
      exists m2. cbn [plain_run]. rewrite E1. cbn [bind]. split; [exact E2|]. exact H2.
  Qed.

  Lemma pmap_new_binv (proto : C) w h : 1 <= w -> 1 <= h ->
    binv w h proto (pmap_new proto w h) (t_init proto).
  Proof.
    intros Hw Hh. split; [apply pmap_new_shape; lia|]. split; [apply pmap_new_reads; lia|].
    cbn. unfold default_origin. rewrite !Z.quot_div_nonneg by lia. auto.
  Qed.

  Theorem bounded_plain_refines (proto : C) w h ops : 1 <= w -> 1 <= h ->
    (forall op, In op ops -> binside w h (w_coord (op_write op))) ->
    exists m, plain_run cell_upd (pmap_new proto w h) ops = Ok m /\
      (forall c, binside w h c -> plain_get m c = Ok (t_run cell_upd (t_init proto) (map op_write ops) c)) /\
      (forall c, ~ binside w h c -> plain_get m c = Abort /\ forall o, plain_update cell_upd m c o = Abort).
  Proof.
    intros Hw Hh Hin.
    destruct (plain_run_inv w h proto ops _ _ Hin (pmap_new_binv proto w h Hw Hh)) as (m & E & HS & HR & Ew & Eh & Eo & Ep).
    exists m. split; [exact E|].
    assert (HB := fun c => binside_internal w h m c Ew Eh Eo).
    split; intros c Hc.
    - apply HB in Hc. specialize (HR c). unfold unb_get in HR. unfold plain_get. rewrite Hc in *. exact HR.
    - assert (HF : has_internal_cell (p_w m) (p_h m) (external2internal (p_origin m) c) = false).
      { destruct has_internal_cell eqn:E'; auto. apply HB in E'. contradiction. }
      split; [|intros o; unfold plain_update]; unfold plain_get; rewrite HF; reflexivity.
  Qed.

  (** [reset] has no check: outside the map it is undefined behaviour *)
  Theorem bounded_plain_reset_outside (proto : C) w h ops m c v : 1 <= w -> 1 <= h ->
    (forall op, In op ops -> binside w h (w_coord (op_write op))) ->
    plain_run cell_upd (pmap_new proto w h) ops = Ok m -> ~ binside w h c -> plain_reset m c v = UB.
  Proof.
    intros Hw Hh Hin Hrun Hc.
    destruct (plain_run_inv w h proto ops _ _ Hin (pmap_new_binv proto w h Hw Hh)) as (m' & E & HS & HR & Ew & Eh & Eo & Ep).
    assert (m' = m) by congruence. subst m'.
    assert (HB := binside_internal w h m c Ew Eh Eo). destruct HS as (_ & _ & HL & HF).
    rewrite has_internal_iff in HB. unfold plain_reset, set_internal.
    set (ic := external2internal (p_origin m) c) in *.
    destruct (znth (p_cells m) (cy ic)) as [row|] eqn:E1; auto.
    destruct (znth row (cx ic)) eqn:E2; auto.
    exfalso. apply Hc. apply HB. assert (R1 := znth_Some_range _ _ _ E1). assert (R2 := znth_Some_range _ _ _ E2).
    rewrite Forall_forall in HF. apply znth_In in E1. apply HF in E1. lia.
  Qed.
End PM.
