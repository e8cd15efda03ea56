(** Proofs about adding scans to maps. *)
From Coq Require Import ZArith List Bool Lia Reals Lra.
From Flocq Require Import Core.
From Verif.Base Require Import Outcome Num F64Facts.
From Verif.Model Require Import MathUtils Geometry Grid PlainMap Cells Sensor ScanAdder.
From Verif.Spec Require Import GeometrySpec MapSpec ScanSpec.
From Verif.Proofs Require Import GridNumProofs GrowthProofs PlainMapProofs.
Import ListNotations.
Local Open Scope Z_scope.
Local Open Scope outcome_scope.

Fixpoint run_updates {M A} (upd : M -> coord -> A -> outcome M) (l : list (coord * A)) (m : M) : outcome M :=
  match l with
  | [] => Ok m
  | (c, o) :: l => m' <- upd m c o ;; run_updates upd l m'
  end.

Lemma run_updates_app {M A} (upd : M -> coord -> A -> outcome M) l1 l2 m :
  run_updates upd (l1 ++ l2) m = (m' <- run_updates upd l1 m ;; run_updates upd l2 m').
Proof.
  revert m. induction l1 as [|[c o] l1 IH]; intros m; [reflexivity|].
  cbn [run_updates app]. destruct (upd m c o); cbn [bind]; auto.
Qed.

Lemma rev_ends {A} (l : list A) e : ends_with e l -> l <> [] -> exists t, rev l = e :: t /\ l = removelast l ++ [e].
Proof.
  intros He Hne. destruct (exists_last Hne) as (l' & a & ->). unfold ends_with in He.
  rewrite app_length in He. cbn [length] in He. replace (length l' + 1 - 1)%nat with (length l') in He by lia.
  rewrite nth_error_app2, Nat.sub_diag in He by lia. cbn in He. injection He as ->.
  exists (rev l'). rewrite rev_app_distr, removelast_last. auto.
Qed.

Section Generic.
  Context {D : Type} {ops : DOps D}.
  Variables (scale : D) (est : segment D -> rect D -> bool -> occup D) (qual : list (scan_point D) -> Z -> D)
            (max_range blur : D) (datan2 : D -> D -> D) (tcos tsin : D -> D -> D).

  Notation est_o := (ScanSpec.est_o est).
  Notation qual_o := (ScanSpec.qual_o qual).
  Notation trig_o := (ScanSpec.trig_o tcos tsin).
  Notation ray_cells := (ScanSpec.ray_cells scale).
  Notation end_cell := (ScanSpec.end_cell scale).
  Notation sp_beam := (ScanSpec.sp_beam datan2 tcos tsin).

  Definition beam_updates (b : segment D) (is_occ : bool) (q : D) : list (coord * aoo D) :=
    if too_long max_range b then [] else
    let s := end_cell (sbeg b) in let e := end_cell (send b) in
    (e, hit_obs scale est b is_occ q e) ::
    map (fun c => (c, pass_obs scale est blur b is_occ q s e c)) (removelast (ray_cells b)).

  (** what is needed of a beam that is short enough *)
  Definition beam_ok (b : segment D) : Prop :=
    too_long max_range b = false ->
    exists s e l, world_to_cell scale (sbeg b) = Ok s /\ world_to_cell scale (send b) = Ok e /\
      world_to_cells scale b = Ok l /\ cell_path s e l /\
      (forall c, In c l -> world_cell_bounds scale c = Ok (cell_rect scale c)).

  Context {M : Type}.
  Variable upd : M -> coord -> aoo D -> outcome M.

  Lemma free_loop_updates b is_occ q s e l m :
    (forall c, In c l -> world_cell_bounds scale c = Ok (cell_rect scale c)) ->
    let r := blur_radius scale blur b is_occ in
    free_cells_loop upd scale est_o b q (est b (cell_rect scale e) is_occ) e (cells_sq s e) (dmul r r) l m
    = run_updates upd (map (fun c => (c, pass_obs scale est blur b is_occ q s e c)) l) m.
  Proof.
    intros H. cbv zeta. revert m. induction l as [|c l IH]; intros m; [reflexivity|].
    cbn [free_cells_loop map run_updates]. unfold free_cell_obs. rewrite (H c) by now left. cbn [bind est_o].
    unfold est_o at 1. cbn [bind].
    change (cdist_sq c e) with (cells_sq (D := D) c e).
    unfold pass_obs at 1. destruct (_ && _)%bool; cbn [bind];
      (destruct (upd m c _); cbn [bind]; auto; apply IH; intros; apply H; now right).
  Qed.

  Lemma handle_updates m is_occ q b : beam_ok b ->
    handle_scan_point upd scale est_o max_range blur m is_occ q b = run_updates upd (beam_updates b is_occ q) m.
  Proof.
    intros HB. unfold handle_scan_point, beam_updates.
    change (length_sq b) with (beam_sq b). change (dlt (dmul max_range max_range) (beam_sq b)) with (too_long max_range b).
    unfold beam_ok in HB. destruct (too_long max_range b); [reflexivity|].
    destruct (HB eq_refl) as (s & e & l & Es & Ee & El & HP & HR). unfold end_cell, ray_cells.
    rewrite Es, Ee, El. cbn [bind].
    destruct HP as (Hst & Hen & _). assert (l <> []) by (intros ->; discriminate Hst).
    destruct (rev_ends l e Hen H) as (t & -> & Hl). rewrite (HR e) by (rewrite Hl; apply in_or_app; right; now left).
    cbn [bind est_o]. unfold est_o at 1. cbn [bind run_updates].
    unfold hit_obs. destruct (upd m e _) as [m1| | |]; cbn [bind]; auto.
    change (cdist_sq s e) with (cells_sq (D := D) s e).
    rewrite <- free_loop_updates by (intros c Hc; apply HR; rewrite Hl; apply in_or_app; now left).
    unfold blur_cell_dist, blur_radius. change (length_sq b) with (beam_sq b). destruct is_occ; reflexivity.
  Qed.

  (** the updates of the points number [i], [i + 1], ... *)
  Fixpoint scan_updates (p : pose D) (sq : D) (pts : list (scan_point D)) (i : nat) (l : list (scan_point D)) : list (coord * aoo D) :=
    match l with
    | [] => []
    | s :: l => beam_updates (sp_beam p s) (sp_occ s) (dmul sq (qual pts (Z.of_nat i))) ++ scan_updates p sq pts (S i) l
    end.

  Lemma append_loop_updates p sq pts : forall k fuel i m,
    (i + k <= length pts)%nat -> (k <= fuel)%nat ->
    (forall s, In s pts -> beam_ok (sp_beam p s)) ->
    append_loop upd scale est_o qual_o max_range blur datan2 fuel (trig_o (pth p)) (pose_point p) pts sq
      (Z.of_nat i) (Z.of_nat i + Z.of_nat k - 1) m
    = run_updates upd (scan_updates p sq pts i (firstn k (skipn i pts))) m.
  Proof.
    induction k as [|k IH]; intros fuel i m Hi Hf HB.
    - cbn [firstn scan_updates run_updates]. destruct fuel; cbn [append_loop];
        replace (Z.of_nat i <=? _) with false by (symmetry; apply Z.leb_gt; lia); reflexivity.
    - destruct fuel as [|fuel]; [lia|]. cbn [append_loop].
      replace (Z.of_nat i <=? _) with true by (symmetry; apply Z.leb_le; lia).
      rewrite Nat2Z.id.
      destruct (nth_error pts i) as [s|] eqn:En; [|apply nth_error_None in En; lia].
      assert (Hs : skipn i pts = s :: skipn (S i) pts).
      { clear -En. revert i En. induction pts as [|x pts IH]; intros [|i] En; try discriminate.
        - cbn in En. injection En as ->. reflexivity.
        - cbn in En. cbn [skipn]. rewrite IH by exact En. reflexivity. }
      rewrite Hs. cbn [firstn scan_updates]. rewrite run_updates_app.
      unfold sp_move_origin_tp. cbn [trig_o tp_cos tp_sin bind]. unfold qual_o at 1. cbn [bind].
      match goal with |- context [handle_scan_point _ _ _ _ _ _ _ _ ?b] => change b with (sp_beam p s) end.
      rewrite handle_updates by (apply HB; eapply nth_error_In; eauto).
      destruct (run_updates upd _ m) as [m1| | |]; cbn [bind]; auto.
      replace (Z.of_nat i + 1) with (Z.of_nat (S i)) by lia.
      replace (Z.of_nat i + Z.of_nat (S k) - 1) with (Z.of_nat (S i) + Z.of_nat k - 1) by lia.
      apply IH; auto; lia.
  Qed.

  Lemma append_loop_empty fuel tp rp pts sq i j m : j < i ->
    append_loop upd scale est_o qual_o max_range blur datan2 fuel tp rp pts sq i j m = Ok m.
  Proof. intros H. destruct fuel; cbn [append_loop]; replace (i <=? j) with false by (symmetry; apply Z.leb_gt; lia); reflexivity. Qed.
End Generic.

(** the observations of one cell in a list of updates *)
Definition obs_at {A} (c : coord) (l : list (coord * A)) : list A :=
  flat_map (fun u => if coord_eq_dec c (fst u) then [snd u] else []) l.

Lemma obs_at_app {A} c (l1 l2 : list (coord * A)) : obs_at c (l1 ++ l2) = obs_at c l1 ++ obs_at c l2.
Proof. unfold obs_at. apply flat_map_app. Qed.

Lemma t_run_obs {C Ob} (f : C -> Ob -> C) (l : list (coord * Ob)) : forall (t : tmap C) c,
  t_run f t (map (fun u => WObserve (fst u) (snd u)) l) c = fold_left f (obs_at c l) (t c).
Proof.
  unfold t_run. induction l as [|[d o] l IH]; intros t c; [reflexivity|].
  cbn [map fold_left fst snd]. rewrite IH. cbn [obs_at flat_map fst snd].
  rewrite fold_left_app. cbn [t_step]. unfold t_write at 1. destruct (coord_eq_dec c d) as [->|]; reflexivity.
Qed.

Section ObsAt.
  Context {D : Type} {ops : DOps D}.
  Variables (scale : D) (est : segment D -> rect D -> bool -> occup D) (max_range blur : D).

  Lemma beam_obs_at b is_occ q c : beam_ok scale max_range b ->
    obs_at c (beam_updates scale est max_range blur b is_occ q)
    = seen_by scale est max_range blur b is_occ q (end_cell scale (sbeg b)) (end_cell scale (send b)) (ray_cells scale b) c.
  Proof.
    intros HB. unfold beam_updates, seen_by. unfold beam_ok in HB. destruct (too_long max_range b); [reflexivity|].
    destruct (HB eq_refl) as (s & e & l & Es & Ee & El & (Hst & Hen & _ & _ & ND & _) & _).
    unfold end_cell, ray_cells. rewrite Es, Ee, El.
    assert (Hne : l <> []) by (intros ->; discriminate Hst).
    destruct (rev_ends l e Hen Hne) as (t & _ & Hl).
    set (g := fun c0 => (c0, pass_obs scale est blur b is_occ q s e c0)).
    assert (K : forall c l', NoDup l' -> obs_at c (map g l') = if in_dec coord_eq_dec c l' then [snd (g c)] else []).
    { clear. intros c l'. induction l' as [|x l' IH]; intros ND; [reflexivity|].
      inversion ND as [|? ? Hx ND' E1]; subst. cbn [map obs_at flat_map fst g]. change (flat_map _ (map g l')) with (obs_at c (map g l')).
      rewrite IH by auto. destruct (coord_eq_dec c x) as [->|Hn].
      - destruct (in_dec coord_eq_dec x l'); [contradiction|].
        destruct (in_dec coord_eq_dec x (x :: l')) as [|N]; [reflexivity|exfalso; apply N; now left].
      - cbn [app]. destruct (in_dec coord_eq_dec c l'), (in_dec coord_eq_dec c (x :: l')) as [H|H]; auto.
        + exfalso. apply H. now right.
        + destruct H; [congruence|contradiction]. }
    rewrite Hl in ND. assert (ND' := NoDup_remove _ _ _ ND). rewrite app_nil_r in ND'. destruct ND' as [ND1 Hnin].
    cbn [obs_at flat_map fst snd]. change (flat_map _ (map g (removelast l))) with (obs_at c (map g (removelast l))).
    rewrite K by exact ND1. destruct (coord_eq_dec c e) as [->|Hn].
    - destruct (in_dec coord_eq_dec e (removelast l)); [contradiction|reflexivity].
    - cbn [app]. destruct (in_dec coord_eq_dec c (removelast l)) as [H|H], (in_dec coord_eq_dec c l) as [H'|H']; auto.
      + exfalso. apply H'. rewrite Hl. apply in_or_app. now left.
      + exfalso. rewrite Hl in H'. apply in_app_or in H'. destruct H' as [H'|[H'|[]]]; [contradiction|congruence].
  Qed.
End ObsAt.

(** ** IEEE doubles: cell bounds, margins *)
Section F64Part.
  Local Open Scope R_scope.

  Lemma world_cell_bounds_F64 (s : F64) (c : coord) : F_fin s = true -> 0 < F2R64 s <= bpow radix2 900 ->
    (Z.abs (cx c) <= 2 ^ 31)%Z -> (Z.abs (cy c) <= 2 ^ 31)%Z -> world_cell_bounds s c = Ok (cell_rect s c).
  Proof.
    intros Fs Hs Hx Hy. unfold world_cell_bounds, mk_rect, cell_rect.
    assert (K : forall z, (Z.abs z <= 2 ^ 31)%Z -> dle (dmul s (dofZ z)) (dmul s (dofZ (z + 1))) = true).
    { intros z Hz. destruct (F_ofZ_correct z) as [E1 F1]; [clear -Hz; lia|].
      destruct (F_ofZ_correct (z + 1)) as [E2 F2]; [clear -Hz; lia|].
      assert (NO : forall w, (Z.abs w <= 2 ^ 53)%Z -> no_ovf (F2R64 s * IZR w)).
      { intros w Hw. apply no_ovf_le with (bpow radix2 953).
        - apply fmt_bpow; lia.
        - eapply Rlt_trans; [|apply bpow1023_lt]. apply bpow_lt. lia.
        - rewrite Rabs_mult, (Rabs_pos_eq (F2R64 s)) by lra. rewrite <- abs_IZR.
          replace (bpow radix2 953) with (bpow radix2 900 * bpow radix2 53) by (rewrite <- bpow_plus; f_equal; lia).
          apply Rmult_le_compat; try lra; [apply IZR_le; lia|].
          change (bpow radix2 53) with (IZR (2 ^ 53)). apply IZR_le. exact Hw. }
      destruct (F_mul_correct s (dofZ z) Fs F1) as [E3 F3]. { rewrite E1. apply NO. clear -Hz; lia. }
      destruct (F_mul_correct s (dofZ (z + 1)) Fs F2) as [E4 F4]. { rewrite E2. apply NO. clear -Hz; lia. }
      rewrite (F_le_fin _ _ F3 F4), E3, E4, E1, E2. apply rnd_le. apply Rmult_le_compat_l; [lra|]. apply IZR_le. lia. }
    rewrite (K _ Hx), (K _ Hy). reflexivity.
  Qed.

  Lemma margin_F64 (n m : Z) : (0 < n < 2 ^ 52)%Z -> (0 <= m < 2 ^ 52)%Z ->
    dtrunc (dofZ m : F64) = Some m /\
    dtrunc (dsub (dsub (dofZ n) (dofZ m)) (dofZ 1) : F64) = Some (n - m - 1)%Z.
  Proof.
    intros Hn Hm.
    destruct (F_ofZ_correct n) as [En Fn]; [lia|]. destruct (F_ofZ_correct m) as [Em Fm]; [lia|].
    destruct (F_ofZ_correct 1) as [E1 F1]; [lia|].
    assert (ZO : forall z, (Z.abs z <= 2 ^ 53)%Z -> no_ovf (IZR z)).
    { intros z Hz. apply no_ovf_le with (bpow radix2 53); [apply fmt_bpow; lia| |].
      - eapply Rlt_trans; [|apply bpow1023_lt]. apply bpow_lt. lia.
      - rewrite <- abs_IZR. change (bpow radix2 53) with (IZR (2 ^ 53)). now apply IZR_le. }
    destruct (F_sub_correct (dofZ n) (dofZ m) Fn Fm) as [E2 F2].
    { rewrite En, Em, <- minus_IZR. apply ZO. lia. }
    rewrite En, Em, <- minus_IZR, rnd_id in E2 by (apply fmt_IZR; lia).
    destruct (F_sub_correct (dsub (dofZ n) (dofZ m)) (dofZ 1) F2 F1) as [E3 F3].
    { rewrite E2, E1, <- minus_IZR. apply ZO. lia. }
    rewrite E2, E1, <- minus_IZR, rnd_id in E3 by (apply fmt_IZR; lia).
    split.
    - rewrite F_trunc_correct by exact Fm. rewrite Em, Ztrunc_IZR. reflexivity.
    - rewrite F_trunc_correct by exact F3. rewrite E3, Ztrunc_IZR. reflexivity.
  Qed.
End F64Part.

Section AppendF64.
  Context {M : Type}.
  Variable upd : M -> coord -> aoo F64 -> outcome M.
  Variables (scale : F64) (est : segment F64 -> rect F64 -> bool -> occup F64) (qual : list (scan_point F64) -> Z -> F64)
            (max_range blur : F64) (datan2 : F64 -> F64 -> F64) (tcos tsin : F64 -> F64 -> F64).
  Notation append := (append_scan upd scale (est_o est) (qual_o qual) max_range blur datan2 (trig_o tcos tsin)).

  Lemma append_margin m p pts sq (k : nat) : pts <> [] -> Z.of_nat (length pts) < 2 ^ 52 -> (k < length pts)%nat ->
    (forall s, In s pts -> beam_ok scale max_range (sp_beam datan2 tcos tsin p s)) ->
    append m p pts sq (dofZ (Z.of_nat k))
    = run_updates upd (scan_updates scale est qual max_range blur datan2 tcos tsin p sq pts k
                         (firstn (length pts - 2 * k) (skipn k pts))) m.
  Proof.
    intros Hne Hl Hk HB. unfold append_scan. destruct pts as [|p0 pts0]; [congruence|]. set (pts := p0 :: pts0) in *.
    destruct (margin_F64 (Z.of_nat (length pts)) (Z.of_nat k)) as [E1 E2]; [clear -Hl Hk; lia|clear -Hl Hk; lia|].
    rewrite E1, E2. unfold to_size.
    replace ((0 <=? Z.of_nat (length pts) - Z.of_nat k - 1) && (Z.of_nat (length pts) - Z.of_nat k - 1 <? 2 ^ 64)) with true
      by (symmetry; apply andb_true_intro; split; [apply Z.leb_le|apply Z.ltb_lt]; clear -Hl Hk; lia).
    replace ((0 <=? Z.of_nat k) && (Z.of_nat k <? 2 ^ 64)) with true
      by (symmetry; apply andb_true_intro; split; [apply Z.leb_le|apply Z.ltb_lt]; clear -Hl Hk; lia).
    cbn [bind]. destruct (Nat.le_gt_cases (length pts) (2 * k)) as [H|H].
    - rewrite append_loop_empty by (clear -H; lia). replace (length pts - 2 * k)%nat with O by lia. reflexivity.
    - replace (Z.of_nat (length pts) - Z.of_nat k - 1) with (Z.of_nat k + Z.of_nat (length pts - 2 * k) - 1) by (clear -H; lia).
      apply append_loop_updates; auto; clear -H; lia.
  Qed.

  Lemma append_margin_ub m p pts sq (k : Z) : pts <> [] -> Z.of_nat (length pts) < 2 ^ 52 -> Z.of_nat (length pts) <= k < 2 ^ 52 ->
    append m p pts sq (dofZ k) = UB.
  Proof.
    intros Hne Hl Hk. unfold append_scan. destruct pts as [|p0 pts0]; [congruence|]. set (pts := p0 :: pts0) in *.
    destruct (margin_F64 (Z.of_nat (length pts)) k) as [E1 E2]; [cbn [length pts] in *; clear -Hl Hk; lia|clear -Hl Hk; lia|].
    rewrite E2. unfold to_size.
    replace ((0 <=? Z.of_nat (length pts) - k - 1)) with false by (symmetry; apply Z.leb_gt; clear -Hk; lia). reflexivity.
  Qed.
End AppendF64.

(** ** unbounded plain maps *)
Section PlainF64.
  Context {C : Type}.
  Variable cell_upd : C -> aoo F64 -> C.
  Notation uupd := (unb_update (ops := FOps) cell_upd).

  Lemma unb_run_updates l : forall m, run_updates uupd l m = unb_run cell_upd m (map (fun u => Update (fst u) (snd u)) l).
  Proof.
    induction l as [|[c o] l IH]; intros m; [reflexivity|]. cbn [run_updates map unb_run unb_step fst snd].
    destruct (uupd m c o); cbn [bind]; auto.
  Qed.

  Lemma unb_run_app l1 l2 : forall m, unb_run (ops := FOps) cell_upd m (l1 ++ l2) = (m' <- unb_run cell_upd m l1 ;; unb_run cell_upd m' l2).
  Proof.
    induction l1 as [|o l IH]; intros m; [reflexivity|]. cbn [app unb_run].
    destruct (unb_step cell_upd m o); cbn [bind]; auto.
  Qed.

  Lemma unb_updates_refine proto w h B hist l m0 :
    1 <= w -> 1 <= h -> 0 <= B -> 4 * B + 2 * Z.max w h < 2 ^ 31 ->
    (forall op, In op hist -> within B (w_coord (op_write op))) ->
    (forall u, In u l -> within B (fst u)) ->
    unb_run (ops := FOps) cell_upd (pmap_new proto w h) hist = Ok m0 ->
    exists m, run_updates uupd l m0 = Ok m /\
      forall c, exists v, unb_get m0 c = Ok v /\ unb_get m c = Ok (fold_left cell_upd (obs_at c l) v).
  Proof.
    intros Hw Hh HB HM Hh' Hl E0.
    destruct (unbounded_plain_refines cell_upd proto w h B hist Hw Hh HB HM Hh') as (m0' & E0' & HR0 & _).
    rewrite E0 in E0'. injection E0' as <-.
    destruct (unbounded_plain_refines cell_upd proto w h B (hist ++ map (fun u => Update (fst u) (snd u)) l) Hw Hh HB HM)
      as (m & E & HR & _).
    { intros op Hop. apply in_app_or in Hop. destruct Hop as [Hop|Hop]; auto.
      apply in_map_iff in Hop. destruct Hop as (u & <- & Hu). cbn. auto. }
    rewrite unb_run_app, E0 in E. cbn [bind] in E.
    exists m. split; [rewrite unb_run_updates; exact E|]. intros c.
    exists (t_run cell_upd (t_init proto) (map op_write hist) c). split; [apply HR0|].
    rewrite HR, map_app. unfold t_run at 1. rewrite fold_left_app.
    fold (t_run cell_upd (t_init proto) (map op_write hist)).
    rewrite map_map. cbn [op_write].
    change (fold_left (t_step cell_upd) ?l ?f c) with (t_run cell_upd f l c). rewrite t_run_obs. reflexivity.
  Qed.
End PlainF64.

(** ** the whole scan *)
Section Whole.
  Context {C : Type}.
  Variable cell_upd : C -> aoo F64 -> C.
  Variables (scale : F64) (est : segment F64 -> rect F64 -> bool -> occup F64) (qual : list (scan_point F64) -> Z -> F64)
            (max_range blur : F64) (datan2 : F64 -> F64 -> F64) (tcos tsin : F64 -> F64 -> F64).
  Notation beam := (sp_beam datan2 tcos tsin).
  Notation append := (append_scan (unb_update (ops := FOps) cell_upd) scale (est_o est) (qual_o qual) max_range blur datan2 (trig_o tcos tsin)).

  Notation beam_in := (ScanSpec.beam_in scale max_range).
  Notation scan_obs := (ScanSpec.scan_obs scale est qual max_range blur datan2 tcos tsin).

  Hypothesis (Fs : F_fin scale = true) (Hs : (0 < F2R64 scale <= bpow radix2 900)%R).

  Lemma beam_in_path B b : beam_in B b -> too_long max_range b = false ->
    exists s e l, world_to_cell scale (sbeg b) = Ok s /\ world_to_cell scale (send b) = Ok e /\
      world_to_cells scale b = Ok l /\ cell_path s e l /\ within B e /\ (forall c, In c l -> within B c).
  Proof.
    intros HB HT. destruct (HB HT) as (F1 & F2 & s & e & Es & Ws & Ee & We).
    destruct (world_to_cells_path_F64 scale b s e Fs (proj1 Hs) F1 F2 Es Ee) as (l & El & HP).
    exists s, e, l. repeat (split; [assumption|]). intros c Hc. destruct HP as (_ & _ & _ & Hbox & _).
    specialize (Hbox c Hc). unfold in_box in Hbox. unfold within in *. lia.
  Qed.

  Lemma beam_in_ok B b : B < 2 ^ 31 -> beam_in B b -> beam_ok scale max_range b.
  Proof.
    intros HB Hb HT. destruct (beam_in_path B b Hb HT) as (s & e & l & Es & Ee & El & HP & _ & HW).
    exists s, e, l. repeat (split; [assumption|]). intros c Hc. destruct (HW c Hc) as [H1 H2].
    apply world_cell_bounds_F64; auto; unfold cx, cy; clear -H1 H2 HB; lia.
  Qed.

  Lemma scan_updates_obs p sq pts c : forall l k, (forall s, In s l -> beam_ok scale max_range (beam p s)) ->
    obs_at c (scan_updates scale est qual max_range blur datan2 tcos tsin p sq pts k l)
    = flat_map (fun ip => let b := beam p (snd ip) in
                seen_by scale est max_range blur b (sp_occ (snd ip)) (dmul sq (qual pts (Z.of_nat (fst ip))))
                  (end_cell scale (sbeg b)) (end_cell scale (send b)) (ray_cells scale b) c) (combine (seq k (length l)) l).
  Proof.
    induction l as [|s l IH]; intros k H; [reflexivity|]. cbn [scan_updates length seq combine flat_map fst snd].
    rewrite obs_at_app, IH by (intros; apply H; now right). f_equal.
    apply beam_obs_at. apply H. now left.
  Qed.

  Lemma scan_updates_within B p sq pts : forall l k, (forall s, In s l -> beam_in B (beam p s)) ->
    forall u, In u (scan_updates scale est qual max_range blur datan2 tcos tsin p sq pts k l) -> within B (fst u).
  Proof.
    induction l as [|s l IH]; intros k H u Hu; [destruct Hu|]. cbn [scan_updates] in Hu.
    apply in_app_or in Hu. destruct Hu as [Hu|Hu]; [|apply IH with (k := S k); auto; intros; apply H; now right].
    unfold beam_updates in Hu. destruct (too_long max_range (beam p s)) eqn:HT; [destruct Hu|].
    destruct (beam_in_path B _ (H s (or_introl eq_refl)) HT) as (a & e & l' & Es & Ee & El & HP & We & HW).
    unfold end_cell, ray_cells in Hu. rewrite Es, Ee, El in Hu. destruct Hu as [<-|Hu]; [exact We|].
    apply in_map_iff in Hu. destruct Hu as (c & <- & Hc). apply HW.
    destruct HP as (Hst & Hen & _). assert (Hne : l' <> []) by (intros ->; discriminate Hst).
    destruct (rev_ends l' e Hen Hne) as (t & _ & Hl). rewrite Hl. apply in_or_app. now left.
  Qed.

  Theorem append_scan_F64 proto w h B hist m0 p pts sq (k : nat) :
    1 <= w -> 1 <= h -> 0 <= B -> 4 * B + 2 * Z.max w h < 2 ^ 31 ->
    (forall op, In op hist -> within B (w_coord (op_write op))) ->
    unb_run (ops := FOps) cell_upd (pmap_new proto w h) hist = Ok m0 ->
    Z.of_nat (length pts) < 2 ^ 52 -> (k < length pts)%nat ->
    (forall s, In s pts -> beam_in B (beam p s)) ->
    exists m, append m0 p pts sq (dofZ (Z.of_nat k)) = Ok m /\
      forall c, exists v, unb_get m0 c = Ok v /\ unb_get m c = Ok (fold_left cell_upd (scan_obs p sq k pts c) v).
  Proof.
    intros Hw Hh HB HM Hh' E0 Hl Hk Hb.
    assert (HO : forall s, In s pts -> beam_ok scale max_range (beam p s)).
    { intros s Hin. apply beam_in_ok with B; auto. clear -HM HB Hw. lia. }
    rewrite append_margin; auto; [|destruct pts; [cbn in Hk; lia|discriminate]].
    assert (HI : forall s, In s (firstn (length pts - 2 * k) (skipn k pts)) -> In s pts).
    { intros s Hin. rewrite <- (firstn_skipn k pts). apply in_or_app. right.
      rewrite <- (firstn_skipn (length pts - 2 * k) (skipn k pts)). apply in_or_app. now left. }
    destruct (unb_updates_refine cell_upd proto w h B hist
      (scan_updates scale est qual max_range blur datan2 tcos tsin p sq pts k (firstn (length pts - 2 * k) (skipn k pts))) m0
      Hw Hh HB HM Hh') as (m & E & HR); auto.
    { apply scan_updates_within. auto. }
    exists m. split; [exact E|]. intros c. destruct (HR c) as (v & E1 & E2). exists v. split; [exact E1|].
    rewrite E2, scan_updates_obs by auto. unfold scan_obs, numbered.
    rewrite firstn_length, skipn_length. replace (Nat.min _ _) with (length pts - 2 * k)%nat by lia. reflexivity.
  Qed.
End Whole.
