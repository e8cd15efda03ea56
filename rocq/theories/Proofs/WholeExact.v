(** The map a run builds, cell by cell (C95). *)
From Coq Require Import Reals ZArith List Bool Lia Lra.
From Flocq Require Import Core.
From Verif.Base Require Import Outcome Num F64Facts.
From Verif.Model Require Import MathUtils Geometry Grid PlainMap LazyMap Cells Sensor ScanAdder Histogram AreaEstimator World Config WholeSlam.
From Verif.Spec Require Import GeometrySpec MapSpec ScanSpec ManyMapsSpec WholeMapSpec.
From Verif.Proofs Require Import GridNumProofs GrowthProofs PlainMapProofs LazyMapProofs ScanAdderProofs.
Import ListNotations.
Local Open Scope Z_scope.
Local Open Scope outcome_scope.

Local Lemma Ok_inj {A} (a b : A) : Ok a = Ok b -> a = b. Proof. congruence. Qed.

(** ** adding a scan with components that may fail *)
Section Gen.
  Context {D : Type} {ops : DOps D} {M : Type}.
  Variables (scale : D) (est : segment D -> rect D -> bool -> occup D) (qual : list (scan_point D) -> Z -> D)
            (max_range blur : D) (datan2 : D -> D -> D) (tcos tsin : D -> D -> D).
  Variable upd : M -> coord -> aoo D -> outcome M.
  Variable esto : segment D -> rect D -> bool -> outcome (occup D).
  Variable qualo : list (scan_point D) -> Z -> outcome D.
  Variable trigo : D -> trig D.

  Lemma free_loop_gen b q base e d1 d2 l : forall m,
    (forall c, In c l -> world_cell_bounds scale c = Ok (cell_rect scale c)) ->
    (forall c, In c l -> esto b (cell_rect scale c) false = Ok (est b (cell_rect scale c) false)) ->
    free_cells_loop upd scale esto b q base e d1 d2 l m = free_cells_loop upd scale (est_o est) b q base e d1 d2 l m.
  Proof.
    induction l as [|c l IH]; intros m H1 H2; [reflexivity|]. cbn [free_cells_loop]. unfold free_cell_obs.
    rewrite (H1 c) by now left. cbn [bind]. rewrite (H2 c) by now left. unfold est_o at 1. cbn [bind].
    destruct (upd m c _); cbn [bind]; auto. apply IH; intros; [apply H1|apply H2]; now right.
  Qed.

  (** what is needed of a point's estimates *)
  Definition est_ok (b : segment D) (is_occ : bool) : Prop :=
    too_long max_range b = false -> forall e c, world_to_cell scale (send b) = Ok e -> In c (ray_cells scale b) ->
    esto b (cell_rect scale c) (if coord_eq_dec c e then is_occ else false) = Ok (est b (cell_rect scale c) (if coord_eq_dec c e then is_occ else false)).

  Lemma handle_gen m is_occ q b : beam_ok scale max_range b -> est_ok b is_occ ->
    handle_scan_point upd scale esto max_range blur m is_occ q b = run_updates upd (beam_updates scale est max_range blur b is_occ q) m.
  Proof.
    intros HB HE. rewrite <- handle_updates by exact HB. unfold handle_scan_point.
    change (length_sq b) with (beam_sq b). change (dlt (dmul max_range max_range) (beam_sq b)) with (too_long max_range b).
    unfold beam_ok in HB. unfold est_ok in HE. destruct (too_long max_range b); [reflexivity|].
    destruct (HB eq_refl) as (s & e & l & Es & Ee & El & HP & HR). specialize (HE eq_refl e). unfold ray_cells in HE. rewrite El in HE.
    rewrite Es, Ee, El. cbn [bind]. destruct HP as (Hst & Hen & _ & _ & ND & _). assert (H : l <> []) by (intros ->; discriminate Hst).
    destruct (rev_ends l e Hen H) as (t & -> & Hl). assert (He : In e l) by (rewrite Hl; apply in_or_app; right; now left).
    rewrite (HR e) by exact He. cbn [bind]. assert (HEe := HE e Ee He). destruct (coord_eq_dec e e) as [_|N]; [|congruence]. rewrite HEe.
    unfold est_o at 1. cbn [bind]. destruct (upd m e _) as [m1| | |]; cbn [bind]; auto.
    apply free_loop_gen.
    - intros c Hc. apply HR. rewrite Hl. apply in_or_app. now left.
    - intros c Hc. assert (Hc' : In c l) by (rewrite Hl; apply in_or_app; now left). specialize (HE c Ee Hc').
      destruct (coord_eq_dec c e) as [->|_]; [|exact HE]. exfalso. rewrite Hl in ND. apply NoDup_remove in ND as [_ ND]. rewrite app_nil_r in ND. contradiction.
  Qed.

  Notation beam := (sp_beam datan2 tcos tsin).
  (** what is needed of a point *)
  Definition point_ok (p : pose D) (pts : list (scan_point D)) (i : nat) (s : scan_point D) : Prop :=
    tp_cos (trigo (pth p)) (sp_angle datan2 s) = Ok (tcos (pth p) (sp_angle datan2 s)) /\
    tp_sin (trigo (pth p)) (sp_angle datan2 s) = Ok (tsin (pth p) (sp_angle datan2 s)) /\
    qualo pts (Z.of_nat i) = Ok (qual pts (Z.of_nat i)) /\
    beam_ok scale max_range (beam p s) /\ est_ok (beam p s) (sp_occ s).

  Lemma skipn_nth {A} (pts : list A) i s : nth_error pts i = Some s -> skipn i pts = s :: skipn (S i) pts.
  Proof.
    revert i. induction pts as [|x pts IH]; intros [|i] En; try discriminate.
    - cbn in En. injection En as ->. reflexivity.
    - cbn in En. cbn [skipn]. rewrite IH by exact En. reflexivity.
  Qed.

  Lemma append_loop_gen p sq pts : forall n fuel i m, (i + n <= length pts)%nat -> (n <= fuel)%nat ->
    (forall j s, In (j, s) (combine (seq i n) (firstn n (skipn i pts))) -> point_ok p pts j s) ->
    append_loop upd scale esto qualo max_range blur datan2 fuel (trigo (pth p)) (pose_point p) pts sq (Z.of_nat i) (Z.of_nat i + Z.of_nat n - 1) m
    = run_updates upd (scan_updates scale est qual max_range blur datan2 tcos tsin p sq pts i (firstn n (skipn i pts))) m.
  Proof.
    induction n as [|n IH]; intros fuel i m Hi Hf HB.
    - cbn [firstn scan_updates run_updates]. destruct fuel; cbn [append_loop];
        replace (Z.of_nat i <=? _) with false by (symmetry; apply Z.leb_gt; lia); reflexivity.
    - destruct fuel as [|fuel]; [lia|]. cbn [append_loop].
      replace (Z.of_nat i <=? _) with true by (symmetry; apply Z.leb_le; lia). rewrite Nat2Z.id.
      destruct (nth_error pts i) as [s|] eqn:En; [|apply nth_error_None in En; lia].
      rewrite (skipn_nth pts i s En) in *. cbn [firstn scan_updates seq combine] in *. rewrite run_updates_app.
      destruct (HB i s (or_introl eq_refl)) as (Hc & Hs & Hq & HO & HE).
      unfold sp_move_origin_tp. rewrite Hc. cbn [bind]. rewrite Hs. cbn [bind]. rewrite Hq. cbn [bind].
      match goal with |- context [handle_scan_point _ _ _ _ _ _ _ _ ?b] => change b with (beam p s) end.
      rewrite (handle_gen m (sp_occ s) _ (beam p s) HO HE).
      destruct (run_updates upd _ m) as [m1| | |]; cbn [bind]; auto.
      replace (Z.of_nat i + 1) with (Z.of_nat (S i)) by lia.
      replace (Z.of_nat i + Z.of_nat (S n) - 1) with (Z.of_nat (S i) + Z.of_nat n - 1) by lia.
      apply IH; try lia. intros j s' Hj. apply HB. now right.
  Qed.
End Gen.

Section GenF64.
  Context {M : Type}.
  Variables (scale : F64) (est : segment F64 -> rect F64 -> bool -> occup F64) (qual : list (scan_point F64) -> Z -> F64)
            (max_range blur : F64) (datan2 : F64 -> F64 -> F64) (tcos tsin : F64 -> F64 -> F64).
  Variable upd : M -> coord -> aoo F64 -> outcome M.
  Variable esto : segment F64 -> rect F64 -> bool -> outcome (occup F64).
  Variable qualo : list (scan_point F64) -> Z -> outcome F64.
  Variable trigo : F64 -> trig F64.
  Lemma append_gen m p pts sq (k : nat) : Z.of_nat (length pts) < 2 ^ 52 -> (k < length pts)%nat ->
    (forall j s, In (j, s) (numbered k pts) -> point_ok scale est qual max_range datan2 tcos tsin esto qualo trigo p pts j s) ->
    append_scan upd scale esto qualo max_range blur datan2 trigo m p pts sq (dofZ (Z.of_nat k))
    = run_updates upd (scan_updates scale est qual max_range blur datan2 tcos tsin p sq pts k (firstn (length pts - 2 * k) (skipn k pts))) m.
  Proof.
    intros Hl Hk HB. unfold append_scan. destruct pts as [|p0 pts0]; [cbn in Hk; lia|]. set (pts := p0 :: pts0) in *.
    destruct (margin_F64 (Z.of_nat (length pts)) (Z.of_nat k)) as [E1 E2]; [clear -Hl Hk; lia|clear -Hl Hk; lia|].
    rewrite E1, E2. unfold to_size.
    replace ((0 <=? Z.of_nat (length pts) - Z.of_nat k - 1) && (Z.of_nat (length pts) - Z.of_nat k - 1 <? 2 ^ 64)) with true
      by (symmetry; apply andb_true_intro; split; [apply Z.leb_le|apply Z.ltb_lt]; clear -Hl Hk; lia).
    replace ((0 <=? Z.of_nat k) && (Z.of_nat k <? 2 ^ 64)) with true
      by (symmetry; apply andb_true_intro; split; [apply Z.leb_le|apply Z.ltb_lt]; clear -Hl Hk; lia).
    cbn [bind]. destruct (Nat.le_gt_cases (length pts) (2 * k)) as [H|H].
    - replace (length pts - 2 * k)%nat with O by (clear -H; lia). cbn [firstn scan_updates run_updates].
      destruct (length pts) eqn:L; cbn [append_loop]; (replace (Z.of_nat k <=? _) with false by (symmetry; apply Z.leb_gt; clear -H; lia)); reflexivity.
    - replace (Z.of_nat (length pts) - Z.of_nat k - 1) with (Z.of_nat k + Z.of_nat (length pts - 2 * k) - 1) by (clear -H; lia).
      apply append_loop_gen; auto; clear -H; lia.
  Qed.
End GenF64.

(** ** the four kinds of maps *)
Section Kinds.
  Variables (proto : acell F64) (grow : Z -> Z -> coord -> coord -> Z * Z * coord) (impact : acell F64 -> F64) (bound : nat).
  Notation upd := (amap_update proto grow impact bound).
  Notation wobs := (fun u : coord * aoo F64 => WObserve (fst u) (snd u)).

  Lemma plain_updates l : forall m, run_updates upd l (MPlain m) = (m' <- plain_run acell_upd m (map (fun u => Update (fst u) (snd u)) l) ;; Ok (MPlain m')).
  Proof.
    induction l as [|[c o] l IH]; intros m; [reflexivity|]. cbn [run_updates map plain_run plain_step fst snd amap_update].
    destruct (plain_update acell_upd m c o); cbn [bind]; auto.
  Qed.
  Lemma unb_updates l : forall m, run_updates upd l (MUnbounded m) = (m' <- unb_run (ops := FOps) acell_upd m (map (fun u => Update (fst u) (snd u)) l) ;; Ok (MUnbounded m')).
  Proof.
    induction l as [|[c o] l IH]; intros m; [reflexivity|]. cbn [run_updates map unb_run unb_step fst snd amap_update].
    destruct (unb_update acell_upd m c o); cbn [bind]; auto.
  Qed.
  Lemma lazy_updates l : forall s, run_updates upd l (MLazy s 0) = (s' <- lrun Tile_Size_Bits acell_upd s (map (fun u => LUpdate 0 (fst u) (snd u)) l) ;; Ok (MLazy s' 0)).
  Proof.
    induction l as [|[c o] l IH]; intros s; [reflexivity|]. cbn [run_updates map lrun fst snd amap_update].
    destruct (lstep Tile_Size_Bits acell_upd s (LUpdate 0 c o)); cbn [bind]; auto.
  Qed.

  Lemma lazy_kind unb w h M l : 0 <= M -> 1 <= w -> 1 <= h -> M + Z.max w h < 2 ^ 22 - 256 ->
    (forall u, In u l -> within M (fst u)) -> (unb = false -> forall u, In u l -> binside w h (fst u)) ->
    exists s0 s, lstep Tile_Size_Bits acell_upd lempty (LCreate unb proto w h) = Ok s0 /\
      lrun Tile_Size_Bits acell_upd s0 (map (fun u => LUpdate 0 (fst u) (snd u)) l) = Ok s /\
      forall c, (unb = false -> binside w h c) -> lread Tile_Size_Bits s 0 c = Ok (fold_left acell_upd (obs_at c l) proto).
  Proof.
    intros HM Hw Hh HB HW HI.
    assert (HR : forall l, (unb = false -> forall u, In u l -> binside w h (fst u)) -> forall f,
      sruns (Ob := aoo F64) acell_upd [Some (mkSMap unb w h f)] (map (fun u => SWrite 0 (wobs u)) l) [Some (mkSMap unb w h (t_run acell_upd f (map wobs l)))]).
    { clear. induction l as [|x l IH]; intros HI f; cbn; [constructor|]. econstructor.
      - apply st_write with (m := mkSMap unb w h f); [reflexivity|]. intros E. cbn in E. apply (HI E). now left.
      - cbn. apply IH. intros E u Hu. apply (HI E). now right. }
    destruct (lazy_maps_independent Tile_Size_Bits ltac:(unfold Tile_Size_Bits; lia) M (Z.max w h) (M + Z.max w h + 2 * 2 ^ Tile_Size_Bits) HM ltac:(lia) eq_refl ltac:(unfold Tile_Size_Bits; lia)
      acell_upd (SCreate unb proto w h :: map (fun u => SWrite 0 (wobs u)) l) [Some (mkSMap unb w h (t_run acell_upd (t_init proto) (map wobs l)))]) as (s & E & _ & H).
    - econstructor; [apply st_create|]. cbn. apply HR. exact HI.
    - constructor; [cbn; lia|]. rewrite Forall_forall. intros op Hop. apply in_map_iff in Hop. destruct Hop as (x & <- & Hx). cbn. auto.
    - cbn [map] in E. cbn [lrun] in E. change (sop_lop (SCreate unb proto w h)) with (LCreate (Ob := aoo F64) unb proto w h) in E.
      destruct (lstep Tile_Size_Bits acell_upd lempty (LCreate unb proto w h)) as [s0| | |]; try discriminate. cbn [bind] in E.
      exists s0, s. split; [reflexivity|]. rewrite map_map in E. split; [exact E|]. intros c Hc.
      rewrite (H 0%nat _ eq_refl c). { cbn [sm_fun]. rewrite t_run_obs. reflexivity. } exact Hc.
  Qed.

  Lemma kind_refines k w h B l m0 : size_ok k w h B -> (forall u, In u l -> area k w h B (fst u)) ->
    new_amap proto k w h = Ok m0 ->
    exists m, run_updates upd l m0 = Ok m /\ forall c, readable k w h c -> amap_get m c = Ok (fold_left acell_upd (obs_at c l) proto).
  Proof.
    intros (Hw & Hh & HB & HS) HA. destruct k; cbn [new_amap]; unfold area, readable in *; cbn [bounded_kind] in *.
    - intros X. apply Ok_inj in X. rewrite <- X. rewrite plain_updates.
      destruct (bounded_plain_refines acell_upd proto w h (map (fun u => Update (fst u) (snd u)) l) Hw Hh) as (m & E & H & _).
      { intros op Hop. apply in_map_iff in Hop. destruct Hop as (u & <- & Hu). cbn. auto. }
      rewrite E. cbn [bind]. exists (MPlain m). split; [reflexivity|]. intros c Hc. cbn [amap_get]. rewrite H by auto.
      rewrite map_map. cbn [op_write]. rewrite t_run_obs. reflexivity.
    - intros X. apply Ok_inj in X. rewrite <- X. rewrite unb_updates.
      destruct (unbounded_plain_refines acell_upd proto w h B (map (fun u => Update (fst u) (snd u)) l) Hw Hh HB HS) as (m & E & H & _).
      { intros op Hop. apply in_map_iff in Hop. destruct Hop as (u & <- & Hu). cbn. auto. }
      rewrite E. cbn [bind]. exists (MUnbounded m). split; [reflexivity|]. intros c _. cbn [amap_get]. rewrite H.
      rewrite map_map. cbn [op_write]. rewrite t_run_obs. reflexivity.
    - destruct (lazy_kind false w h (Z.max w h) l) as (s0 & s & E0 & E & H); auto; try lia.
      { intros u Hu. specialize (HA u Hu). unfold binside in HA. unfold within.
        pose proof (Z.div_mod w 2 ltac:(lia)). pose proof (Z.mod_pos_bound w 2 ltac:(lia)). pose proof (Z.div_mod h 2 ltac:(lia)). pose proof (Z.mod_pos_bound h 2 ltac:(lia)). destruct u as [[x y] ob]. cbn [fst snd] in *. lia. }
      rewrite E0. cbn [bind]. intros X. apply Ok_inj in X. rewrite <- X, lazy_updates, E. cbn [bind]. eexists. split; [reflexivity|].
      intros c Hc. cbn [amap_get]. apply H. auto.
    - destruct (lazy_kind true w h B l) as (s0 & s & E0 & E & H); auto; try discriminate.
      rewrite E0. cbn [bind]. intros X. apply Ok_inj in X. rewrite <- X, lazy_updates, E. cbn [bind]. eexists. split; [reflexivity|].
      intros c Hc. cbn [amap_get]. apply H. discriminate.
  Qed.
End Kinds.

(** ** areas *)
Lemma area_box k w h B a b c : area k w h B a -> area k w h B b -> in_box a b c -> area k w h B c.
Proof. unfold area, in_box. destruct (bounded_kind k); unfold binside, within; lia. Qed.
Lemma area_small k w h B c : size_ok k w h B -> area k w h B c -> Z.abs (cx c) <= 2 ^ 31 /\ Z.abs (cy c) <= 2 ^ 31.
Proof. unfold size_ok, area, cx, cy. destruct k; cbn [bounded_kind]; unfold binside, within; pose proof (Z.div_mod w 2 ltac:(lia)); pose proof (Z.mod_pos_bound w 2 ltac:(lia)); pose proof (Z.div_mod h 2 ltac:(lia)); pose proof (Z.mod_pos_bound h 2 ltac:(lia)); lia. Qed.

(** ** inserting a scan *)
Section Insert.
  Variables (proto : acell F64) (grow : Z -> Z -> coord -> coord -> Z * Z * coord) (impact : acell F64 -> F64) (bound : nat).
  Variables (shift nan : F64) (dcos dsin dacos : F64 -> F64) (mpi : F64) (datan2 : F64 -> F64 -> F64) (k : adder_config F64) (margin : nat).
  Hypothesis (Fs : F_fin (ac_scale k) = true) (Hs : (0 < F2R64 (ac_scale k) <= bpow radix2 900)%R).
  Variables (kind : map_kind) (w h B : Z).
  Hypothesis Hsize : size_ok kind w h B.
  Notation upd := (amap_update proto grow impact bound).
  Notation adder := (whole_append proto grow impact bound shift nan dcos dsin dacos mpi datan2 k).
  Notation insert := (insertable shift nan dcos dsin dacos mpi datan2 k margin (area kind w h B)).
  Notation eobs := (entry_obs shift nan dcos dsin dacos mpi datan2 k margin).

  Lemma numbered_in (pts : list (scan_point F64)) s : In s (firstn (length pts - 2 * margin) (skipn margin pts)) -> exists i, In (i, s) (numbered margin pts).
  Proof.
    unfold numbered. set (l := firstn _ _). assert (L : length l = (length pts - 2 * margin)%nat).
    { unfold l. rewrite firstn_length, skipn_length. lia. }
    rewrite <- L. clearbody l. clear L. generalize margin. induction l as [|x l IH]; intros n Hin; [destruct Hin|]. cbn [length seq combine].
    destruct Hin as [->|Hin]; [exists n; now left|]. destruct (IH (S n) Hin) as (i & Hi). exists i. now right.
  Qed.

  Lemma insert_spec p s q : insert p s -> exists l,
    (forall m, adder m p s q (dofZ (Z.of_nat margin)) = run_updates upd l m) /\ (forall u, In u l -> area kind w h B (fst u)) /\
    (forall c, obs_at c l = eobs (mkEntry p s q) c).
  Proof using Fs Hs Hsize.
    intros [E|(HL & HM & (hh & HR) & HP)].
    - exists []. split; [intros m; unfold whole_append; rewrite E; reflexivity|]. split; [intros u []|].
      intros c. unfold entry_obs. cbn [en_scan en_pose en_quality]. rewrite E. unfold scan_obs, numbered. cbn [length Nat.sub]. destruct margin; reflexivity.
    - set (pts := fst s) in *. set (est := estimated shift nan k). set (qual := fun pts i => answer nan (rated dcos dsin dacos mpi k pts i)).
      set (tc := cos_of nan s). set (ts := sin_of nan s).
      assert (BP : forall pt, In pt (firstn (length pts - 2 * margin) (skipn margin pts)) -> too_long (ac_range k) (sp_beam datan2 tc ts p pt) = false ->
        exists c0 c1 l, world_to_cell (ac_scale k) (px p, py p) = Ok c0 /\ world_to_cell (ac_scale k) (send (sp_beam datan2 tc ts p pt)) = Ok c1 /\
          world_to_cells (ac_scale k) (sp_beam datan2 tc ts p pt) = Ok l /\ cell_path c0 c1 l /\ area kind w h B c1 /\ (forall c, In c l -> area kind w h B c)).
      { intros pt Hin HT. destruct (numbered_in _ _ Hin) as (i & Hi). destruct (HP i pt Hi) as (_ & _ & _ & H).
        destruct (H HT) as (F1 & F2 & c0 & c1 & E0 & A0 & E1 & A1 & _).
        destruct (world_to_cells_path_F64 (ac_scale k) _ c0 c1 Fs (proj1 Hs) F1 F2 E0 E1) as (l & El & Hp).
        exists c0, c1, l. do 5 (split; [assumption|]). intros c Hc. destruct Hp as (_ & _ & _ & Hbox & _). eapply area_box; [exact A0|exact A1|apply Hbox, Hc]. }
      assert (BO : forall pt, In pt (firstn (length pts - 2 * margin) (skipn margin pts)) -> beam_ok (ac_scale k) (ac_range k) (sp_beam datan2 tc ts p pt)).
      { intros pt Hin HT. destruct (BP pt Hin HT) as (c0 & c1 & l & E0 & E1 & El & Hp & _ & HW). exists c0, c1, l. do 4 (split; [assumption|]).
        intros c Hc. destruct (area_small _ _ _ _ _ Hsize (HW c Hc)) as [H1 H2]. apply world_cell_bounds_F64; assumption. }
      exists (scan_updates (ac_scale k) est qual (ac_range k) (ac_blur k) datan2 tc ts p q pts margin (firstn (length pts - 2 * margin) (skipn margin pts))).
      split; [|split].
      + intros m. unfold whole_append. fold pts. destruct pts as [|x xs] eqn:Ep; [cbn in HM; lia|]. rewrite <- Ep in *. rewrite HR. cbn [bind].
        apply append_gen; [exact HL|exact HM|]. intros j pt Hj.
        assert (Hin : In pt (firstn (length pts - 2 * margin) (skipn margin pts))) by (unfold numbered in Hj; apply in_combine_r in Hj; exact Hj).
        destruct (HP j pt Hj) as (Hq & Hc & Hsn & H). unfold point_ok.
        split. { unfold tc, cos_of. destruct Hc as (v & ->). reflexivity. }
        split. { unfold ts, sin_of. destruct Hsn as (v & ->). reflexivity. }
        split. { unfold qual. unfold rated in *. rewrite HR in *. cbn [bind] in *. destruct Hq as (v & ->). reflexivity. }
        split; [apply BO, Hin|]. intros HT e c He Hcr. destruct (H HT) as (_ & _ & c0 & c1 & _ & _ & E1 & _ & HE).
        fold tc in He, Hcr. change (beam_of nan datan2 p s pt) with (sp_beam datan2 tc ts p pt) in E1, HE. rewrite E1 in He. apply Ok_inj in He. subst e.
        destruct (HE c Hcr) as (v & Ev). unfold est, estimated. rewrite Ev. reflexivity.
      + (* in the area *)
        generalize margin at 1. clear HP HR. revert BP. generalize (firstn (length pts - 2 * margin) (skipn margin pts)). intros l BP.
        assert (G : forall l', (forall x, In x l' -> In x l) -> forall n u, In u (scan_updates (ac_scale k) est qual (ac_range k) (ac_blur k) datan2 tc ts p q pts n l') -> area kind w h B (fst u)).
        { induction l' as [|x l' IH]; intros Hsub n u Hu; [destruct Hu|]. cbn [scan_updates] in Hu. apply in_app_or in Hu as [Hu|Hu].
          2:{ apply IH with (n := S n); [|exact Hu]. intros y Hy. apply Hsub. now right. }
          unfold beam_updates in Hu. destruct (too_long (ac_range k) (sp_beam datan2 tc ts p x)) eqn:HT; [destruct Hu|].
          destruct (BP x (Hsub x (or_introl eq_refl)) HT) as (c0 & c1 & l1 & E0 & E1 & El & Hp & A1 & HW).
          unfold end_cell, ray_cells in Hu. cbn [sbeg sp_beam] in Hu. rewrite E0 in Hu. fold (sp_beam datan2 tc ts p x) in *. rewrite E1, El in Hu. destruct Hu as [<-|Hu]; [exact A1|].
          apply in_map_iff in Hu. destruct Hu as (c & <- & Hc). apply HW. destruct Hp as (Hst & Hen & _). assert (Hne : l1 <> []) by (intros ->; discriminate Hst).
          destruct (rev_ends l1 c1 Hen Hne) as (t & _ & Hl). rewrite Hl. apply in_or_app. now left. }
        intros n u Hu. exact (G l (fun x Hx => Hx) n u Hu).
      + intros c. rewrite scan_updates_obs by exact BO. unfold entry_obs, scan_obs, numbered. cbn [en_scan en_pose en_quality]. fold pts.
        rewrite firstn_length, skipn_length. replace (Nat.min _ _) with (length pts - 2 * margin)%nat by lia. reflexivity.
  Qed.

  (** ** whole runs *)
  Context {SM : Type}.
  Variables (sm_reset : SM -> SM) (sm_process : SM -> whole_scan F64 -> pose F64 -> amap F64 -> outcome (F64 * pose F64 * SM)) (ql qr : F64).
  Notation run := (ss_run sm_reset sm_process adder ql qr (dofZ (Z.of_nat margin))).
  Notation goes := (goes_on sm_reset sm_process insert).
  Variable m0 : amap F64.
  Hypothesis Hm0 : new_amap proto kind w h = Ok m0.

  Lemma run_exact : forall hist o wd l0, run_updates upd l0 m0 = Ok (ss_map wd) -> (forall u, In u l0 -> area kind w h B (fst u)) ->
    (forall h1 s h2 o1 w1 n1, hist = h1 ++ EScan s :: h2 -> run o wd h1 = Ok (o1, w1, n1) -> goes w1 s) ->
    exists o' w' notes ds l, run o wd hist = Ok (o', w', notes) /\ ss_log w' = ss_log wd ++ ds /\ length ds = length (all_scans hist) /\
      run_updates upd (l0 ++ l) m0 = Ok (ss_map w') /\ (forall u, In u l -> area kind w h B (fst u)) /\
      (forall c, obs_at c l = flat_map (fun e => eobs e c) (mapped ql qr (ss_pose wd) (all_scans hist) ds)) /\
      ss_pose w' = last_pose (ss_pose wd) (mapped ql qr (ss_pose wd) (all_scans hist) ds).
  Proof using Fs Hs Hsize Hm0.
    unfold ss_run. induction hist as [|ev hist IH]; intros o wd l0 E0 A0 HG.
    - exists o, wd, [], [], []. cbn [world_run all_scans flat_map mapped map last]. rewrite !app_nil_r. do 4 (split; [auto|]). split; [intros u []|]. split; reflexivity.
    - destruct ev as [id|id|id|s].
      1-3: cbn [world_run all_scans flat_map app]; eapply IH; [exact E0|exact A0|];
        intros h1 s' h2 o1 w1 n1 Eh Er; eapply (HG (_ :: h1)); [rewrite Eh; reflexivity|cbn [world_run]; exact Er].
      destruct (HG [] s hist o wd [] eq_refl eq_refl) as (score & d & sm & Em & Hi).
      set (p1 := pose_add (pose_add (ss_pose wd) (ts_delta s)) d) in *. set (q := if delta_nonzero d then ql else qr).
      destruct (insert_spec p1 (ts_scan s) q Hi) as (l1 & Ha & A1 & O1).
      assert (A01 : forall u, In u (l0 ++ l1) -> area kind w h B (fst u)) by (intros u Hu; apply in_app_or in Hu as [Hu|Hu]; auto).
      destruct (kind_refines proto grow impact bound kind w h B (l0 ++ l1) m0 Hsize A01 Hm0) as (m1 & E1 & _).
      assert (E1' := E1). rewrite run_updates_app, E0 in E1'. cbn [bind] in E1'.
      set (w1 := mkSS p1 m1 sm (ss_log wd ++ [d])).
      assert (ES : ss_observe sm_reset sm_process adder ql qr (dofZ (Z.of_nat margin)) (ss_update wd (ts_delta s)) s = Ok w1).
      { unfold ss_observe. cbn [ss_update ss_pose ss_map ss_sm ss_log]. rewrite Em. cbn [bind ss_update ss_pose ss_map ss_sm ss_log]. fold p1 q. rewrite Ha, E1'. reflexivity. }
      assert (EH : handle_sensor_data (fun w d => Ok (ss_update w d)) (ss_observe sm_reset sm_process adder ql qr (dofZ (Z.of_nat margin))) (fun w => Ok (ss_pose w)) (fun w => Ok (ss_map w)) o wd s
        = Ok (w1, notify_with_pose o p1 ++ notify_with_map o m1)).
      { unfold handle_sensor_data. cbn [bind]. rewrite ES. reflexivity. }
      destruct (IH o w1 (l0 ++ l1) E1 A01) as (o' & w' & notes & ds & l & Er & El & Ed & Eu & Al & Ol & Ep).
      { intros h1 s' h2 o1 w2 n1 Eh Er. eapply (HG (EScan s :: h1)); [rewrite Eh; reflexivity|]. cbn [world_run]. rewrite EH. cbn [bind]. rewrite Er. cbn [bind]. reflexivity. }
      cbn [world_run]. rewrite EH. cbn [bind]. rewrite Er. cbn [bind].
      exists o', w', ((notify_with_pose o p1 ++ notify_with_map o m1) ++ notes), (d :: ds), (l1 ++ l). split; [reflexivity|].
      split; [rewrite El; unfold w1; cbn [ss_log]; rewrite <- app_assoc; reflexivity|].
      split; [cbn [all_scans flat_map app length]; f_equal; exact Ed|]. split; [rewrite app_assoc; exact Eu|].
      split; [intros u Hu; apply in_app_or in Hu as [Hu|Hu]; auto|]. cbn [all_scans flat_map app mapped]. fold p1 q. split.
      + intros c. cbn [flat_map]. rewrite obs_at_app, O1, Ol. reflexivity.
      + unfold last_pose in *. rewrite Ep. unfold w1. cbn [ss_pose map en_pose]. fold (all_scans hist).
        set (t := map en_pose _). destruct t as [|y t]; [reflexivity|]. change (last (p1 :: y :: t) (ss_pose wd)) with (last (y :: t) (ss_pose wd)). clear. revert y. induction t as [|z t IH]; intros y; [reflexivity|]. cbn [last]. apply IH.
  Qed.
End Insert.

(** ** two maps under the same run *)
Section Twins.
  Variables (proto : acell F64) (grow : Z -> Z -> coord -> coord -> Z * Z * coord) (impact : acell F64 -> F64) (bound : nat).
  Variables (shift nan : F64) (dcos dsin dacos : F64 -> F64) (mpi : F64) (datan2 : F64 -> F64 -> F64) (k : adder_config F64) (margin : nat).
  Hypothesis (Fs : F_fin (ac_scale k) = true) (Hs : (0 < F2R64 (ac_scale k) <= bpow radix2 900)%R).
  Variables (kind1 kind2 : map_kind) (w1 h1 w2 h2 B : Z).
  Hypotheses (Hz1 : size_ok kind1 w1 h1 B) (Hz2 : size_ok kind2 w2 h2 B) (U1 : bounded_kind kind1 = false) (U2 : bounded_kind kind2 = false).
  Notation upd := (amap_update proto grow impact bound).
  Notation adder := (whole_append proto grow impact bound shift nan dcos dsin dacos mpi datan2 k).
  Notation insert := (insertable shift nan dcos dsin dacos mpi datan2 k margin (within B)).
  Context {SM : Type}.
  Variables (sm_reset : SM -> SM) (look : SM -> whole_scan F64 -> pose F64 -> (coord -> outcome (acell F64)) -> outcome (F64 * pose F64 * SM)) (ql qr : F64).
  Hypothesis Hlook : forall sm s p f g, (forall c, f c = g c) -> look sm s p f = look sm s p g.
  Notation process := (reading look).
  Notation run := (ss_run sm_reset process adder ql qr (dofZ (Z.of_nat margin))).
  Variables m01 m02 : amap F64.
  Hypotheses (Hm1 : new_amap proto kind1 w1 h1 = Ok m01) (Hm2 : new_amap proto kind2 w2 h2 = Ok m02).

  Lemma kinds_agree l a1 a2 : run_updates upd l m01 = Ok a1 -> run_updates upd l m02 = Ok a2 -> (forall u, In u l -> within B (fst u)) -> same_cells a1 a2.
  Proof using Hz1 Hz2 U1 U2 Hm1 Hm2.
    intros E1 E2 HW c.
    destruct (kind_refines proto grow impact bound kind1 w1 h1 B l m01 Hz1) as (x1 & X1 & R1); [intros u Hu; unfold area; rewrite U1; auto|exact Hm1|].
    destruct (kind_refines proto grow impact bound kind2 w2 h2 B l m02 Hz2) as (x2 & X2 & R2); [intros u Hu; unfold area; rewrite U2; auto|exact Hm2|].
    rewrite E1 in X1. apply Ok_inj in X1. rewrite E2 in X2. apply Ok_inj in X2. subst x1 x2. rewrite R1, R2; [reflexivity| |]; unfold readable; congruence.
  Qed.

  Lemma insert_both p s q : insert p s -> exists l, (forall m, adder m p s q (dofZ (Z.of_nat margin)) = run_updates upd l m) /\ (forall u, In u l -> within B (fst u)).
  Proof using Fs Hs Hz1 U1.
    intros Hi. destruct (insert_spec proto grow impact bound shift nan dcos dsin dacos mpi datan2 k margin Fs Hs kind1 w1 h1 B Hz1 p s q) as (l & A & W & _).
    { destruct Hi as [E|(H1 & H2 & H3 & H4)]; [left; exact E|right]. do 3 (split; [assumption|]). intros i pt Hin. destruct (H4 i pt Hin) as (X1 & X2 & X3 & X4).
      do 3 (split; [assumption|]). intros b HT. destruct (X4 HT) as (F1 & F2 & c0 & c1 & E0 & A0 & E1 & A1 & HE). do 2 (split; [assumption|]). exists c0, c1. unfold area. rewrite U1. auto. }
    exists l. split; [exact A|]. intros u Hu. specialize (W u Hu). unfold area in W. rewrite U1 in W. exact W.
  Qed.

  Lemma twins_run : forall hist o wa wb l0, ss_pose wa = ss_pose wb -> ss_sm wa = ss_sm wb -> ss_log wa = ss_log wb ->
    run_updates upd l0 m01 = Ok (ss_map wa) -> run_updates upd l0 m02 = Ok (ss_map wb) -> (forall u, In u l0 -> within B (fst u)) ->
    (forall h1 s h2 o1 w1 n1, hist = h1 ++ EScan s :: h2 -> run o wa h1 = Ok (o1, w1, n1) -> goes_on sm_reset process insert w1 s) ->
    exists o' wa' wb' na nb, run o wa hist = Ok (o', wa', na) /\ run o wb hist = Ok (o', wb', nb) /\
      ss_pose wa' = ss_pose wb' /\ ss_sm wa' = ss_sm wb' /\ ss_log wa' = ss_log wb' /\ same_cells (ss_map wa') (ss_map wb') /\ Forall2 same_note na nb.
  Proof using Fs Hs Hz1 Hz2 U1 U2 Hlook Hm1 Hm2.
    unfold ss_run. induction hist as [|ev hist IH]; intros o wa wb l0 Ep Es El E1 E2 A0 HG.
    - exists o, wa, wb, [], []. do 2 (split; [reflexivity|]). do 3 (split; [assumption|]). split; [eapply kinds_agree; eassumption|constructor].
    - destruct ev as [id|id|id|s].
      1-3: cbn [world_run]; eapply IH; try eassumption;
        intros h1' s' h2' o1 w1' n1 Eh Er; eapply (HG (_ :: h1')); [rewrite Eh; reflexivity|cbn [world_run]; exact Er].
      destruct (HG [] s hist o wa [] eq_refl eq_refl) as (score & d & sm & Em & Hi).
      set (p1 := pose_add (pose_add (ss_pose wa) (ts_delta s)) d) in *. set (q := if delta_nonzero d then ql else qr).
      destruct (insert_both p1 (ts_scan s) q Hi) as (l1 & Ha & A1).
      assert (A01 : forall u, In u (l0 ++ l1) -> within B (fst u)) by (intros u Hu; apply in_app_or in Hu as [Hu|Hu]; auto).
      destruct (kind_refines proto grow impact bound kind1 w1 h1 B (l0 ++ l1) m01 Hz1) as (ma & Ea & _); [intros u Hu; unfold area; rewrite U1; auto|exact Hm1|].
      destruct (kind_refines proto grow impact bound kind2 w2 h2 B (l0 ++ l1) m02 Hz2) as (mb & Eb & _); [intros u Hu; unfold area; rewrite U2; auto|exact Hm2|].
      assert (Ea' := Ea). rewrite run_updates_app, E1 in Ea'. cbn [bind] in Ea'. assert (Eb' := Eb). rewrite run_updates_app, E2 in Eb'. cbn [bind] in Eb'.
      assert (Emb : process (sm_reset (ss_sm wb)) (ts_scan s) (pose_add (ss_pose wb) (ts_delta s)) (ss_map wb) = Ok (score, d, sm)).
      { rewrite <- Es, <- Ep, <- Em. unfold reading. apply Hlook. intros c. symmetry. eapply kinds_agree; [exact E1|exact E2|exact A0]. }
      set (xa := mkSS p1 ma sm (ss_log wa ++ [d])). set (xb := mkSS p1 mb sm (ss_log wb ++ [d])).
      assert (HA : handle_sensor_data (fun w d => Ok (ss_update w d)) (ss_observe sm_reset process adder ql qr (dofZ (Z.of_nat margin))) (fun w => Ok (ss_pose w)) (fun w => Ok (ss_map w)) o wa s
        = Ok (xa, notify_with_pose o p1 ++ notify_with_map o ma)).
      { unfold handle_sensor_data. cbn [bind]. unfold ss_observe. cbn [ss_update ss_pose ss_map ss_sm ss_log]. rewrite Em. cbn [bind ss_update ss_pose ss_map ss_sm ss_log]. fold p1 q. rewrite Ha, Ea'. reflexivity. }
      assert (HBb : handle_sensor_data (fun w d => Ok (ss_update w d)) (ss_observe sm_reset process adder ql qr (dofZ (Z.of_nat margin))) (fun w => Ok (ss_pose w)) (fun w => Ok (ss_map w)) o wb s
        = Ok (xb, notify_with_pose o p1 ++ notify_with_map o mb)).
      { unfold handle_sensor_data. cbn [bind]. unfold ss_observe. cbn [ss_update ss_pose ss_map ss_sm ss_log]. rewrite Emb. cbn [bind ss_update ss_pose ss_map ss_sm ss_log]. rewrite <- Ep. fold p1 q. rewrite Ha, Eb'. reflexivity. }
      destruct (IH o xa xb (l0 ++ l1)) as (o' & wa' & wb' & na & nb & Ra & Rb & P & Q & L & C & N); auto.
      { unfold xa, xb. cbn [ss_log]. rewrite El. reflexivity. }
      { intros h1' s' h2' o1 w2' n1 Eh Er. eapply (HG (EScan s :: h1')); [rewrite Eh; reflexivity|]. cbn [world_run]. rewrite HA. cbn [bind]. rewrite Er. cbn [bind]. reflexivity. }
      cbn [world_run]. rewrite HA, HBb. cbn [bind]. rewrite Ra, Rb. cbn [bind].
      exists o', wa', wb', ((notify_with_pose o p1 ++ notify_with_map o ma) ++ na), ((notify_with_pose o p1 ++ notify_with_map o mb) ++ nb).
      do 2 (split; [reflexivity|]). do 4 (split; [assumption|]). apply Forall2_app; [apply Forall2_app|exact N].
      + unfold notify_with_pose. induction (wo_pose o) as [|id ids IHi]; [constructor|]. cbn [flat_map]. apply Forall2_app; [|exact IHi]. destruct (locks o id); constructor; [constructor|constructor].
      + assert (SC : same_cells ma mb) by (eapply kinds_agree; [exact Ea|exact Eb|exact A01]).
        unfold notify_with_map. induction (wo_map o) as [|id ids IHi]; [constructor|]. cbn [flat_map]. apply Forall2_app; [|exact IHi]. destruct (locks o id); constructor; [constructor; exact SC|constructor].
  Qed.
End Twins.
