(** A bounded map that is large enough behaves as an unbounded one (C104). *)
From Coq Require Import Reals ZArith List Bool Lia Lra.
From Flocq Require Import Core.
From Verif.Base Require Import Outcome Num F64Facts.
From Verif.Model Require Import MathUtils Geometry Grid PlainMap LazyMap Cells Sensor Matchers Spe ScanAdder Histogram AreaEstimator World Config Pyramid WholeSlam WholeMatcher MapView.
From Verif.Spec Require Import GeometrySpec MapSpec ScanSpec ManyMapsSpec WholeMapSpec BorderSpec.
From Verif.Proofs Require Import ScanAdderProofs WholeMaps WholeExact.
Import ListNotations.
Local Open Scope Z_scope.
Local Open Scope outcome_scope.
Local Lemma ok_inj {A} (a b : A) : Ok a = Ok b -> a = b. Proof. congruence. Qed.

(** ** a matcher on two maps, of which the second has all cells of the first *)
Section Ext.
  Context {D : Type} {ops : DOps D} {C : Type}.
  Variables (impact : C -> outcome D) (m1 m2 : omap D C).
  Hypotheses (Hs : om_scale m2 = om_scale m1) (Hg : forall c v, om_cell m1 c = Ok v -> om_cell m2 c = Ok v).
  Lemma impact_ext c v : cell_impact impact m1 c = Ok v -> cell_impact impact m2 c = Ok v.
  Proof using Hg.
    unfold cell_impact. intros E. apply bind_Ok_inv in E as (x & E1 & E). rewrite (Hg _ _ E1). exact E.
  Qed.
  Lemma max_ext l : forall b v, max_loop impact m1 l b = Ok v -> max_loop impact m2 l b = Ok v.
  Proof using Hg.
    induction l as [|c l IH]; intros b v; cbn [max_loop]; [auto|]. intros E. apply bind_Ok_inv in E as (x & E1 & E). rewrite (impact_ext _ _ E1). cbn [bind]. auto.
  Qed.
  Lemma mean_ext l : forall t n v, mean_loop impact m1 l t n = Ok v -> mean_loop impact m2 l t n = Ok v.
  Proof using Hg.
    induction l as [|c l IH]; intros t n v; cbn [mean_loop]; [auto|]. intros E. apply bind_Ok_inv in E as (x & E1 & E). rewrite (impact_ext _ _ E1). cbn [bind]. auto.
  Qed.
  Lemma overlap_ext a l : forall t w v, overlap_loop impact m1 a l t w = Ok v -> overlap_loop impact m2 a l t w = Ok v.
  Proof using Hg Hs.
    induction l as [|c l IH]; intros t w v; cbn [overlap_loop]; [auto|]. rewrite Hs. intros E. apply bind_Ok_inv in E as (x & E1 & E). rewrite (impact_ext _ _ E1). cbn [bind].
    apply bind_Ok_inv in E as (b & -> & E). cbn [bind]. apply bind_Ok_inv in E as (o & -> & E). cbn [bind]. auto.
  Qed.
  Lemma area_ext fuel a : dispinf (rect_area a) = false -> area_cells m2 fuel a = area_cells m1 fuel a.
  Proof using Hs.
    intros H. unfold area_cells, raster_rect. rewrite H, Hs. cbn [negb andb]. destruct (deq (rect_area a) (dofZ 0)); reflexivity.
  Qed.
  Lemma observation_ext kind bound o a v : dispinf (rect_area a) = false -> observation_prob impact kind bound m1 o a = Ok v -> observation_prob impact kind bound m2 o a = Ok v.
  Proof using Hs Hg.
    intros H. unfold observation_prob. destruct kind.
    all: first [ unfold obstacle_pe; rewrite Hs; intros E; apply bind_Ok_inv in E as (c & -> & E); cbn [bind]; apply impact_ext; exact E
               | unfold max_pe; rewrite (area_ext _ _ H); intros E; apply bind_Ok_inv in E as (c & -> & E); cbn [bind]; apply max_ext; exact E
               | unfold mean_pe; rewrite (area_ext _ _ H); intros E; apply bind_Ok_inv in E as (c & -> & E); cbn [bind]; apply bind_Ok_inv in E as (x & E1 & E); rewrite (mean_ext _ _ _ _ E1); exact E
               | unfold overlap_pe; rewrite (area_ext _ _ H); intros E; apply bind_Ok_inv in E as (c & -> & E); cbn [bind]; apply bind_Ok_inv in E as (x & E1 & E); rewrite (overlap_ext _ _ _ _ _ E1); exact E ].
  Qed.
  Variables (dcos dsin : D -> D) (datan2 : D -> D -> D) (kind : oope_kind) (bound : nat) (weight : list (scan_point D) -> Z -> outcome D) (area : rect D).
  Hypothesis Ha : stays_finite area.
  Lemma loop_ext (wt : Z -> outcome D) p tp pts : forall i t w v,
    estimate_loop wt (point_prob dcos dsin datan2 (observation_prob impact kind bound m1) p tp false area) i pts t w = Ok v ->
    estimate_loop wt (point_prob dcos dsin datan2 (observation_prob impact kind bound m2) p tp false area) i pts t w = Ok v.
  Proof using Hs Hg Ha.
    induction pts as [|s pts IH]; intros i t w v; cbn [estimate_loop]; [auto|]. intros E. apply bind_Ok_inv in E as (x & E1 & E). apply bind_Ok_inv in E as (y & E2 & E).
    assert (E1' : point_prob dcos dsin datan2 (observation_prob impact kind bound m2) p tp false area s = Ok x).
    { unfold point_prob in *. apply bind_Ok_inv in E1 as (o & -> & E1). cbn [bind]. apply bind_Ok_inv in E1 as (a & Ea & E1). rewrite Ea. cbn [bind]. apply observation_ext; [exact (Ha _ _ Ea)|exact E1]. }
    rewrite E1', E2. cbn [bind]. apply IH. exact E.
  Qed.
  Lemma estimate_ext sc pts p v : pose_estimate dcos dsin datan2 impact kind bound weight area m1 sc pts p = Ok v ->
    pose_estimate dcos dsin datan2 impact kind bound weight area m2 sc pts p = Ok v.
  Proof using Hs Hg Ha.
    unfold pose_estimate, estimate_scan. intros E. apply bind_Ok_inv in E as (x & E1 & E). rewrite (loop_ext _ _ _ _ _ _ _ _ E1). exact E.
  Qed.
  Variables (skip : Z) (range : D).
  Hypothesis H2 : forall c, om_has m2 c = true.
  Lemma filter_ext p tp : forall raw i l,
    (forall s q c, In s raw -> sp_occ s = true -> sp_move_origin_tp datan2 p tp s = Ok q -> world_to_cell (om_scale m1) q = Ok c -> om_has m1 c = true) ->
    filter_loop datan2 m1 skip range p tp i raw = Ok l -> filter_loop datan2 m2 skip range p tp i raw = Ok l.
  Proof using Hs H2.
    induction raw as [|s raw IH]; intros i l HH; cbn [filter_loop]; [auto|].
    destruct (_ && _). { apply IH. intros; eapply HH; eauto; right; assumption. }
    rewrite Hs. intros E. apply bind_Ok_inv in E as (q & E1 & E). rewrite E1. cbn [bind]. apply bind_Ok_inv in E as (c & E2 & E). rewrite E2. cbn [bind].
    apply bind_Ok_inv in E as (r & E3 & E). rewrite (IH _ _ (fun s q c I => HH s q c (or_intror I)) E3). cbn [bind]. rewrite <- E. unfold should_skip. rewrite H2.
    destruct (sp_occ s) eqn:O; [|reflexivity]. rewrite (HH s q c (or_introl eq_refl) O E1 E2). reflexivity.
  Qed.
  Context {E : Type}.
  Variables (en : enumerator D E) (obs : observers).
  Lemma pe_grows score : forall fuel e b pr t o e' b' pr' t' o', pe_loop en score obs fuel e b pr t o = Ok (e', b', pr', t', o') -> exists l, t' = t ++ l.
  Proof using.
    induction fuel as [|fuel IH]; intros e b pr t o e' b' pr' t' o'; cbn [pe_loop]; destruct (e_has_next en e); try discriminate;
      try (intros X; exists []; rewrite app_nil_r; congruence).
    destruct (e_next en e b) as [p e1]. destruct (dlt pr (score p)); intros X; apply IH in X; destruct X as [l ->]; exists ([p] ++ l); rewrite app_assoc; reflexivity.
  Qed.
  Lemma pe_same score1 score2 : forall fuel e b pr t o e' b' pr' t' o', pe_loop en score1 obs fuel e b pr t o = Ok (e', b', pr', t', o') ->
    (forall p, In p t' -> score2 p = score1 p) -> pe_loop en score2 obs fuel e b pr t o = Ok (e', b', pr', t', o').
  Proof using.
    induction fuel as [|fuel IH]; intros e b pr t o e' b' pr' t' o'; cbn [pe_loop]; destruct (e_has_next en e); try discriminate; auto.
    destruct (e_next en e b) as [p e1]. intros X HS.
    assert (I : In p t'). { destruct (dlt pr (score1 p)); apply pe_grows in X; destruct X as [l ->]; apply in_or_app; left; apply in_or_app; right; now left. }
    rewrite (HS p I). destruct (dlt pr (score1 p)); exact (IH _ _ _ _ _ _ _ _ _ _ X HS).
  Qed.
  Lemma process_same score1 score2 fuel e init r : process_scan en score1 obs fuel e init = Ok r -> (forall p, In p (mr_tested r) -> score2 p = score1 p) ->
    process_scan en score2 obs fuel e init = Ok r.
  Proof using.
    unfold process_scan. cbv zeta. intros A HS. apply bind_Ok_inv in A as ([[[[e' b] p] t] q] & A0 & A).
    assert (T : mr_tested r = t) by (apply ok_inj in A; rewrite <- A; reflexivity). rewrite T in HS. clear T.
    assert (S0 : score2 init = score1 init). { apply HS. apply pe_grows in A0 as [l ->]. now left. }
    rewrite S0. rewrite (pe_same score1 score2 _ _ _ _ _ _ _ _ _ _ _ A0 HS). exact A.
  Qed.
  Lemma matcher_ext nan fuel e sc p r :
    (forall s q c, In s (fst sc) -> sp_occ s = true -> sp_move_origin_tp datan2 (px p, py p) (snd sc (pth p)) s = Ok q -> world_to_cell (om_scale m1) q = Ok c -> om_has m1 c = true) ->
    matcher_process dcos dsin datan2 impact kind bound skip range weight area nan en obs fuel e sc p m1 = Ok r ->
    matcher_process dcos dsin datan2 impact kind bound skip range weight area nan en obs fuel e sc p m2 = Ok r.
  Proof using Hs Hg Ha H2.
    intros HH. unfold matcher_process. cbv zeta. intros A. apply bind_Ok_inv in A as (pts & A0 & A). unfold filter_scan, pose_point in *.
    rewrite (filter_ext _ _ _ _ _ HH A0). cbn [bind]. apply bind_Ok_inv in A as (mr & A1 & A).
    destruct (forallb _ (mr_tested mr)) eqn:F1 in A; [|discriminate]. rewrite forallb_forall in F1.
    assert (X : forall x, In x (mr_tested mr) -> exists v, pose_estimate dcos dsin datan2 impact kind bound weight area m1 sc pts x = Ok v /\ pose_estimate dcos dsin datan2 impact kind bound weight area m2 sc pts x = Ok v).
    { intros x I. specialize (F1 x I). cbv beta in F1. destruct (pose_estimate _ _ _ _ _ _ _ _ m1 sc pts x) as [v| | |] eqn:P; try discriminate. exists v. split; [reflexivity|]. apply estimate_ext. exact P. }
    erewrite process_same; [|exact A1|].
    - cbn [bind]. replace (forallb _ (mr_tested mr)) with true; [exact A|]. symmetry. apply forallb_forall. intros x I. destruct (X x I) as (v & _ & ->). reflexivity.
    - intros x I. destruct (X x I) as (v & -> & ->). reflexivity.
  Qed.
End Ext.

(** ** what the matchers see of maps after updates *)
Section Views.
  Variables (proto : acell F64) (grow : Z -> Z -> coord -> coord -> Z * Z * coord) (impact : acell F64 -> F64) (bound : nat).
  Notation upd := (amap_update proto grow impact bound).

  Definition plain_like (w h : Z) (m : amap F64) : Prop := exists p, m = MPlain p /\ p_w p = w /\ p_h p = h /\ p_origin p = (w / 2, h / 2).
  Lemma plain_like_upd w h m c a m' : plain_like w h m -> upd m c a = Ok m' -> plain_like w h m'.
  Proof using.
    intros (p & -> & W & H & O) E. cbn [amap_update] in E. apply bind_Ok_inv in E as (p' & E1 & E). apply ok_inj in E. subst m'.
    unfold plain_update in E1. apply bind_Ok_inv in E1 as (v & _ & E1). unfold set_internal in E1.
    destruct (znth (p_cells p) _) as [row|]; [|discriminate]. destruct (znth row _) as [x|]; [|discriminate]. apply ok_inj in E1. subst p'. eexists. split; [reflexivity|]. cbn [p_w p_h p_origin]. auto.
  Qed.
  Lemma plain_like_run w h l : forall m m', plain_like w h m -> run_updates upd l m = Ok m' -> plain_like w h m'.
  Proof using.
    induction l as [|[c a] l IH]; intros m m' HP E; cbn [run_updates] in E; [apply ok_inj in E; subst; exact HP|].
    apply bind_Ok_inv in E as (m1 & E1 & E). apply (IH m1); [|exact E]. eapply plain_like_upd; eassumption.
  Qed.
  Lemma plain_has scale w h m c : plain_like w h m -> om_has (amap_view scale m) c = true <-> binside w h c.
  Proof using.
    intros (p & -> & W & H & O). cbn [amap_view om_has]. rewrite W, H, O. unfold has_internal_cell, external2internal, coord_add, binside, cx, cy. cbn [fst snd].
    rewrite !andb_true_iff, !Z.leb_le, !Z.ltb_lt. lia.
  Qed.
  Lemma plain_inside w h m c v : plain_like w h m -> amap_get m c = Ok v -> binside w h c.
  Proof using.
    intros HP E. apply (plain_has (dofZ 1) w h m c HP). destruct HP as (p & -> & _). cbn [amap_view om_has amap_get] in *. unfold plain_get, assert_ in E.
    destruct (has_internal_cell _ _ _); [reflexivity|discriminate].
  Qed.

  Definition all_unb {C} (s : lstate C) : Prop := Forall (fun m => match m with Some m => l_unb m = true | None => True end) (s_maps s).
  Lemma get_unb {C} (s : lstate C) i m : all_unb s -> get_map s i = Ok m -> l_unb m = true.
  Proof using.
    intros H. unfold get_map. destruct (nth_error (s_maps s) i) as [[m'|]|] eqn:E; try discriminate. intros X. apply ok_inj in X. subst m'.
    apply nth_error_In in E. unfold all_unb in H. rewrite Forall_forall in H. exact (H _ E).
  Qed.
  Lemma set_unb {C} (s : lstate C) i m : all_unb s -> l_unb m = true -> all_unb (set_map s i (Some m)).
  Proof using. intros H X. unfold all_unb, set_map. cbn [s_maps]. apply Forall_set_nth; [exact H|exact X]. Qed.
  Lemma grow_unb bits m c m' : lazy_ensure_inside bits m c = Ok m' -> l_unb m' = l_unb m.
  Proof using.
    unfold lazy_ensure_inside. destruct (has_internal_cell _ _ _); [intros X; apply ok_inj in X; subst; reflexivity|].
    intros E. apply bind_Ok_inv in E as ([a b] & _ & E). apply bind_Ok_inv in E as ([a' b'] & _ & E). apply bind_Ok_inv in E as (u & _ & E). apply bind_Ok_inv in E as (t & _ & E).
    apply bind_Ok_inv in E as (u' & _ & E). apply ok_inj in E. subst m'. reflexivity.
  Qed.
  Lemma lupdate_unb {C Ob} bits (cu : C -> Ob -> C) s i c o s' : all_unb s -> lstep bits cu s (LUpdate i c o) = Ok s' -> all_unb s'.
  Proof using.
    intros H E. cbn [lstep] in E. apply bind_Ok_inv in E as (s1 & E1 & E).
    assert (H1 : all_unb s1).
    { unfold prepare in E1. apply bind_Ok_inv in E1 as (m & Em & E1). destruct (l_unb m) eqn:U; [|apply ok_inj in E1; subst; exact H].
      apply bind_Ok_inv in E1 as (m' & E2 & E1). apply ok_inj in E1. subst s1. apply set_unb; [exact H|]. rewrite (grow_unb _ _ _ _ E2). exact U. }
    unfold lazy_update, ensure_sole_owning in E. apply bind_Ok_inv in E as (s3 & E3 & E). apply bind_Ok_inv in E3 as (s2 & E2 & E3).
    assert (H2 : all_unb s2).
    { unfold own_tile in E2. apply bind_Ok_inv in E2 as (m & Em & E2). apply bind_Ok_inv in E2 as (t & _ & E2). destruct (Nat.ltb _ _); [|apply ok_inj in E2; subst; exact H1].
      destruct (nth_error (s_tiles s1) t); [|discriminate]. cbn [alloc_tile] in E2. apply ok_inj in E2. subst s2. apply set_unb; [exact H1|]. cbn [set_slot l_unb]. exact (get_unb _ _ _ H1 Em). }
    assert (H3 : all_unb s3).
    { unfold own_cell in E3. apply bind_Ok_inv in E3 as (m & Em & E3). apply bind_Ok_inv in E3 as (t & _ & E3). apply bind_Ok_inv in E3 as (p & _ & E3).
      destruct (Nat.ltb _ _); [|apply ok_inj in E3; subst; exact H2]. apply bind_Ok_inv in E3 as (v & _ & E3). cbn [alloc_cell] in E3. apply ok_inj in E3. subst s3. exact H2. }
    apply bind_Ok_inv in E as (m & _ & E). apply bind_Ok_inv in E as (p & _ & E). apply bind_Ok_inv in E as (v & _ & E). apply ok_inj in E. subst s'. exact H3.
  Qed.

  Definition unb_like (m : amap F64) : Prop := match m with MUnbounded _ => True | MLazy s _ => all_unb s | _ => False end.
  Lemma unb_like_upd m c a m' : unb_like m -> upd m c a = Ok m' -> unb_like m'.
  Proof using.
    destruct m as [p|p|s i|p]; cbn [unb_like amap_update]; try contradiction; intros H E; apply bind_Ok_inv in E as (x & E1 & E); apply ok_inj in E; subst m'; cbn [unb_like]; [exact I|].
    eapply lupdate_unb; eassumption.
  Qed.
  Lemma unb_like_run l : forall m m', unb_like m -> run_updates upd l m = Ok m' -> unb_like m'.
  Proof using.
    induction l as [|[c a] l IH]; intros m m' HP E; cbn [run_updates] in E; [apply ok_inj in E; subst; exact HP|].
    apply bind_Ok_inv in E as (m1 & E1 & E). apply (IH m1); [|exact E]. eapply unb_like_upd; eassumption.
  Qed.
  Lemma unb_like_new kind w h m : bounded_kind kind = false -> new_amap proto kind w h = Ok m -> unb_like m.
  Proof using.
    destruct kind; cbn [bounded_kind new_amap]; try discriminate; intros _ E.
    - apply ok_inj in E. subst m. exact I.
    - apply bind_Ok_inv in E as (s & E1 & E). apply ok_inj in E. subst m. cbn [unb_like]. cbn [lstep alloc_cell alloc_tile lempty s_cells s_tiles s_maps app length] in E1.
      apply ok_inj in E1. subst s. unfold all_unb. cbn [s_maps]. constructor; [reflexivity|constructor].
  Qed.
  Lemma unb_like_has scale m c v : unb_like m -> amap_get m c = Ok v -> forall q, om_has (amap_view scale m) q = true.
  Proof using.
    destruct m as [p|p|s i|p]; cbn [unb_like amap_view amap_get om_has]; try contradiction; intros H E q; [reflexivity|].
    unfold lread in E. apply bind_Ok_inv in E as (l & El & _). rewrite El. cbn [om_has]. rewrite (get_unb _ _ _ H El). reflexivity.
  Qed.
  Lemma view_get scale (m : amap F64) c : om_cell (amap_view scale m) c = amap_get m c.
  Proof using. destruct m as [p|p|s i|p]; cbn [amap_view om_cell]; [reflexivity|reflexivity|destruct (get_map s i); reflexivity|]. destruct (nth_error _ _); reflexivity. Qed.
  Lemma view_scale scale (m : amap F64) : (match m with MRescalable _ => False | _ => True end) -> om_scale (amap_view scale m) = scale.
  Proof using. destruct m as [p|p|s i|p]; cbn [amap_view om_scale]; try reflexivity; [destruct (get_map s i); reflexivity|contradiction]. Qed.
End Views.

(** ** the run *)
Section Border.
  Variables (proto : acell F64) (grow : Z -> Z -> coord -> coord -> Z * Z * coord) (impact : acell F64 -> F64) (bound : nat).
  Variables (shift nan : F64) (dcos dsin dacos : F64 -> F64) (mpi : F64) (datan2 : F64 -> F64 -> F64) (k : adder_config F64) (margin : nat).
  Hypothesis (Fs : F_fin (ac_scale k) = true) (Hs : (0 < F2R64 (ac_scale k) <= bpow radix2 900)%R).
  Variables (kind2 : map_kind) (w h w2 h2 B : Z).
  Hypotheses (Hz1 : size_ok PlainKind w h B) (Hz2 : size_ok kind2 w2 h2 B) (U2 : bounded_kind kind2 = false) (HB : forall c, binside w h c -> within B c).
  Notation upd := (amap_update proto grow impact bound).
  Notation adder := (whole_append proto grow impact bound shift nan dcos dsin dacos mpi datan2 k).
  Notation insert := (insertable shift nan dcos dsin dacos mpi datan2 k margin (binside w h)).
  Context {SM : Type}.
  Variables (sm_reset : SM -> SM) (process : SM -> whole_scan F64 -> pose F64 -> amap F64 -> outcome (F64 * pose F64 * SM)) (ql qr : F64).
  (** the condition on a scan and the pose from which it is matched, and what it gives *)
  Variable seen : pose F64 -> whole_scan F64 -> Prop.
  Hypothesis Hproc : forall sm s p a b r, plain_like w h a -> unb_like b -> (forall c v, amap_get a c = Ok v -> amap_get b c = Ok v) ->
    (exists v, amap_get b (0, 0) = Ok v) -> seen p s -> process sm s p a = Ok r -> process sm s p b = Ok r.
  Notation run := (ss_run sm_reset process adder ql qr (dofZ (Z.of_nat margin))).
  Variables m01 m02 : amap F64.
  Hypotheses (Hm1 : new_amap proto PlainKind w h = Ok m01) (Hm2 : new_amap proto kind2 w2 h2 = Ok m02).

  Lemma both l : (forall u, In u l -> binside w h (fst u)) -> exists a b, run_updates upd l m01 = Ok a /\ run_updates upd l m02 = Ok b /\
    plain_like w h a /\ unb_like b /\ same_inside w h a b /\ (forall c v, amap_get a c = Ok v -> amap_get b c = Ok v) /\ (exists v, amap_get b (0, 0) = Ok v).
  Proof using Hz1 Hz2 U2 HB Hm1 Hm2.
    intros HA.
    destruct (kind_refines proto grow impact bound PlainKind w h B l m01 Hz1) as (a & Ea & Ra); [exact HA|exact Hm1|].
    destruct (kind_refines proto grow impact bound kind2 w2 h2 B l m02 Hz2) as (b & Eb & Rb); [intros u Hu; unfold area; rewrite U2; auto|exact Hm2|].
    assert (Pa : plain_like w h a).
    { apply (plain_like_run proto grow impact bound w h l m01); [|exact Ea]. cbn [new_amap] in Hm1. apply ok_inj in Hm1. rewrite <- Hm1. eexists. split; [reflexivity|]. split; [reflexivity|]. split; [reflexivity|].
      unfold pmap_new, default_origin. cbn [p_origin]. destruct Hz1 as (? & ? & _). rewrite !Z.quot_div_nonneg by lia. reflexivity. }
    assert (SI : same_inside w h a b). { intros c Hc. rewrite Ra, Rb; [reflexivity| |]; unfold readable; [congruence|intros _; exact Hc]. }
    exists a, b. do 2 (split; [assumption|]). split; [exact Pa|]. split; [eapply unb_like_run; [eapply unb_like_new; eassumption|exact Eb]|]. split; [exact SI|].
    split. { intros c v E. rewrite <- (SI c); [exact E|]. exact (plain_inside _ _ _ _ _ Pa E). }
    eexists. apply Rb. unfold readable. congruence.
  Qed.

  Lemma border_run : forall hist o wa wb l0, ss_pose wa = ss_pose wb -> ss_sm wa = ss_sm wb -> ss_log wa = ss_log wb ->
    run_updates upd l0 m01 = Ok (ss_map wa) -> run_updates upd l0 m02 = Ok (ss_map wb) -> (forall u, In u l0 -> binside w h (fst u)) ->
    (forall h1 s h2 o1 w1 n1, hist = h1 ++ EScan s :: h2 -> run o wa h1 = Ok (o1, w1, n1) ->
       goes_on sm_reset process insert w1 s /\ seen (pose_add (ss_pose w1) (ts_delta s)) (ts_scan s)) ->
    exists o' wa' wb' na nb, run o wa hist = Ok (o', wa', na) /\ run o wb hist = Ok (o', wb', nb) /\
      ss_pose wa' = ss_pose wb' /\ ss_sm wa' = ss_sm wb' /\ ss_log wa' = ss_log wb' /\ same_inside w h (ss_map wa') (ss_map wb') /\ Forall2 (same_note_inside w h) na nb.
  Proof using Fs Hs Hz1 Hz2 U2 HB Hproc Hm1 Hm2.
    unfold ss_run. induction hist as [|ev hist IH]; intros o wa wb l0 Ep Es El E1 E2 A0 HG.
    - exists o, wa, wb, [], []. do 2 (split; [reflexivity|]). do 3 (split; [assumption|]). split; [|constructor].
      destruct (both l0 A0) as (a & b & X1 & X2 & _ & _ & SI & _). assert (a = ss_map wa) by congruence. assert (b = ss_map wb) by congruence. subst. exact SI.
    - destruct ev as [id|id|id|s].
      1-3: cbn [world_run]; eapply IH; try eassumption;
        intros h1' s' h2' o1 w1' n1 Eh Er; eapply (HG (_ :: h1')); [rewrite Eh; reflexivity|cbn [world_run]; exact Er].
      destruct (HG [] s hist o wa [] eq_refl eq_refl) as ((score & d & sm & Em & Hi) & HV).
      set (p1 := pose_add (pose_add (ss_pose wa) (ts_delta s)) d) in *. set (q := if delta_nonzero d then ql else qr).
      destruct (insert_spec proto grow impact bound shift nan dcos dsin dacos mpi datan2 k margin Fs Hs PlainKind w h B Hz1 p1 (ts_scan s) q Hi) as (l1 & Ha & A1 & _).
      assert (A01 : forall u, In u (l0 ++ l1) -> binside w h (fst u)) by (intros u Hu; apply in_app_or in Hu as [Hu|Hu]; [auto|exact (A1 u Hu)]).
      destruct (both (l0 ++ l1) A01) as (ma & mb & Ea & Eb & _ & _ & SC & _).
      assert (Ea' := Ea). rewrite run_updates_app, E1 in Ea'. cbn [bind] in Ea'. assert (Eb' := Eb). rewrite run_updates_app, E2 in Eb'. cbn [bind] in Eb'.
      assert (Emb : process (sm_reset (ss_sm wb)) (ts_scan s) (pose_add (ss_pose wb) (ts_delta s)) (ss_map wb) = Ok (score, d, sm)).
      { rewrite <- Es, <- Ep. destruct (both l0 A0) as (a & b & X1 & X2 & Pa & Pb & _ & GX & G0). assert (a = ss_map wa) by congruence. assert (b = ss_map wb) by congruence. subst a b.
        exact (Hproc _ _ _ _ _ _ Pa Pb GX G0 HV Em). }
      set (xa := mkSS p1 ma sm (ss_log wa ++ [d])). set (xb := mkSS p1 mb sm (ss_log wb ++ [d])).
      assert (HA : handle_sensor_data (fun w d => Ok (ss_update w d)) (ss_observe sm_reset process adder ql qr (dofZ (Z.of_nat margin))) (fun w => Ok (ss_pose w)) (fun w => Ok (ss_map w)) o wa s
        = Ok (xa, notify_with_pose o p1 ++ notify_with_map o ma)).
      { unfold handle_sensor_data. cbn [bind]. unfold ss_observe. cbn [ss_update ss_pose ss_map ss_sm ss_log]. rewrite Em. cbn [bind ss_update ss_pose ss_map ss_sm ss_log]. fold p1 q. rewrite Ha, Ea'. reflexivity. }
      assert (HBb : handle_sensor_data (fun w d => Ok (ss_update w d)) (ss_observe sm_reset process adder ql qr (dofZ (Z.of_nat margin))) (fun w => Ok (ss_pose w)) (fun w => Ok (ss_map w)) o wb s
        = Ok (xb, notify_with_pose o p1 ++ notify_with_map o mb)).
      { unfold handle_sensor_data. cbn [bind]. unfold ss_observe. cbn [ss_update ss_pose ss_map ss_sm ss_log]. rewrite Emb. cbn [bind ss_update ss_pose ss_map ss_sm ss_log]. rewrite <- Ep. fold p1 q. rewrite Ha, Eb'. reflexivity. }
      destruct (IH o xa xb (l0 ++ l1)) as (o' & wa' & wb' & na & nb & Ra & Rb & P & Q & L & C & N); auto.
      { unfold xa, xb. cbn [ss_log]. rewrite El. reflexivity. }
      { intros h1' s' h2' o1 w2' n1 Eh Er. eapply (HG (EScan s :: h1')); [rewrite Eh; reflexivity|]. cbn [world_run]. rewrite HA. cbn [bind]. rewrite Er. cbn [bind]. reflexivity. }
      cbn [world_run]. rewrite HA, HBb. cbn [bind]. rewrite Ra, Rb. cbn [bind].
      exists o', wa', wb', ((notify_with_pose o p1 ++ notify_with_map o ma) ++ na), ((notify_with_pose o p1 ++ notify_with_map o mb) ++ nb).
      do 2 (split; [reflexivity|]). do 4 (split; [assumption|]). apply Forall2_app; [apply Forall2_app|exact N].
      + unfold notify_with_pose. induction (wo_pose o) as [|id ids IHi]; [constructor|]. cbn [flat_map]. apply Forall2_app; [|exact IHi]. destruct (locks o id); constructor; [constructor|constructor].
      + unfold notify_with_map. induction (wo_map o) as [|id ids IHi]; [constructor|]. cbn [flat_map]. apply Forall2_app; [|exact IHi]. destruct (locks o id); constructor; [constructor; exact SC|constructor].
  Qed.
End Border.

(** ** the run on two unbounded maps *)
Section Unbounded.
  Variables (proto : acell F64) (grow : Z -> Z -> coord -> coord -> Z * Z * coord) (impact : acell F64 -> F64) (bound : nat).
  Variables (shift nan : F64) (dcos dsin dacos : F64 -> F64) (mpi : F64) (datan2 : F64 -> F64 -> F64) (k : adder_config F64) (margin : nat).
  Hypothesis (Fs : F_fin (ac_scale k) = true) (Hs : (0 < F2R64 (ac_scale k) <= bpow radix2 900)%R).
  Variables (kind1 kind2 : map_kind) (w h w2 h2 B : Z).
  Hypotheses (Hz1 : size_ok kind1 w h B) (Hz2 : size_ok kind2 w2 h2 B) (U1 : bounded_kind kind1 = false) (U2 : bounded_kind kind2 = false).
  Notation upd := (amap_update proto grow impact bound).
  Notation adder := (whole_append proto grow impact bound shift nan dcos dsin dacos mpi datan2 k).
  Notation insert := (insertable shift nan dcos dsin dacos mpi datan2 k margin (within B)).
  Context {SM : Type}.
  Variables (sm_reset : SM -> SM) (process : SM -> whole_scan F64 -> pose F64 -> amap F64 -> outcome (F64 * pose F64 * SM)) (ql qr : F64).
  Hypothesis Hproc : forall sm s p a b r, unb_like a -> unb_like b -> same_cells a b -> (exists v, amap_get b (0, 0) = Ok v) ->
    process sm s p a = Ok r -> process sm s p b = Ok r.
  Notation run := (ss_run sm_reset process adder ql qr (dofZ (Z.of_nat margin))).
  Variables m01 m02 : amap F64.
  Hypotheses (Hm1 : new_amap proto kind1 w h = Ok m01) (Hm2 : new_amap proto kind2 w2 h2 = Ok m02).

  Lemma both_unb l : (forall u, In u l -> within B (fst u)) -> exists a b, run_updates upd l m01 = Ok a /\ run_updates upd l m02 = Ok b /\
    unb_like a /\ unb_like b /\ same_cells a b /\ (exists v, amap_get b (0, 0) = Ok v).
  Proof using Hz1 Hz2 U1 U2 Hm1 Hm2.
    intros HA.
    destruct (kind_refines proto grow impact bound kind1 w h B l m01 Hz1) as (a & Ea & Ra); [intros u Hu; unfold area; rewrite U1; auto|exact Hm1|].
    destruct (kind_refines proto grow impact bound kind2 w2 h2 B l m02 Hz2) as (b & Eb & Rb); [intros u Hu; unfold area; rewrite U2; auto|exact Hm2|].
    exists a, b. do 2 (split; [assumption|]). split; [eapply unb_like_run; [exact (unb_like_new _ _ _ _ _ U1 Hm1)|exact Ea]|]. split; [eapply unb_like_run; [exact (unb_like_new _ _ _ _ _ U2 Hm2)|exact Eb]|].
    split. { intros c. rewrite Ra, Rb; [reflexivity| |]; unfold readable; congruence. }
    eexists. apply Rb. unfold readable. congruence.
  Qed.

  Lemma unbounded_run : forall hist o wa wb l0, ss_pose wa = ss_pose wb -> ss_sm wa = ss_sm wb -> ss_log wa = ss_log wb ->
    run_updates upd l0 m01 = Ok (ss_map wa) -> run_updates upd l0 m02 = Ok (ss_map wb) -> (forall u, In u l0 -> within B (fst u)) ->
    (forall h1 s h2 o1 w1 n1, hist = h1 ++ EScan s :: h2 -> run o wa h1 = Ok (o1, w1, n1) -> goes_on sm_reset process insert w1 s) ->
    exists o' wa' wb' na nb, run o wa hist = Ok (o', wa', na) /\ run o wb hist = Ok (o', wb', nb) /\
      ss_pose wa' = ss_pose wb' /\ ss_sm wa' = ss_sm wb' /\ ss_log wa' = ss_log wb' /\ same_cells (ss_map wa') (ss_map wb') /\ Forall2 same_note na nb.
  Proof using Fs Hs Hz1 Hz2 U1 U2 Hproc Hm1 Hm2.
    unfold ss_run. induction hist as [|ev hist IH]; intros o wa wb l0 Ep Es El E1 E2 A0 HG.
    - exists o, wa, wb, [], []. do 2 (split; [reflexivity|]). do 3 (split; [assumption|]). split; [|constructor].
      destruct (both_unb l0 A0) as (a & b & X1 & X2 & _ & _ & SI & _). assert (a = ss_map wa) by congruence. assert (b = ss_map wb) by congruence. subst. exact SI.
    - destruct ev as [id|id|id|s].
      1-3: cbn [world_run]; eapply IH; try eassumption;
        intros h1' s' h2' o1 w1' n1 Eh Er; eapply (HG (_ :: h1')); [rewrite Eh; reflexivity|cbn [world_run]; exact Er].
      destruct (HG [] s hist o wa [] eq_refl eq_refl) as (score & d & sm & Em & Hi).
      set (p1 := pose_add (pose_add (ss_pose wa) (ts_delta s)) d) in *. set (q := if delta_nonzero d then ql else qr).
      destruct (insert_both proto grow impact bound shift nan dcos dsin dacos mpi datan2 k margin Fs Hs kind1 w h B Hz1 U1 p1 (ts_scan s) q Hi) as (l1 & Ha & A1').
      assert (A01 : forall u, In u (l0 ++ l1) -> within B (fst u)) by (intros u Hu; apply in_app_or in Hu as [Hu|Hu]; [auto|exact (A1' u Hu)]).
      destruct (both_unb (l0 ++ l1) A01) as (ma & mb & Ea & Eb & _ & _ & SC & _).
      assert (Ea' := Ea). rewrite run_updates_app, E1 in Ea'. cbn [bind] in Ea'. assert (Eb' := Eb). rewrite run_updates_app, E2 in Eb'. cbn [bind] in Eb'.
      assert (Emb : process (sm_reset (ss_sm wb)) (ts_scan s) (pose_add (ss_pose wb) (ts_delta s)) (ss_map wb) = Ok (score, d, sm)).
      { rewrite <- Es, <- Ep. destruct (both_unb l0 A0) as (a & b & X1 & X2 & Pa & Pb & GX & G0). assert (a = ss_map wa) by congruence. assert (b = ss_map wb) by congruence. subst a b.
        exact (Hproc _ _ _ _ _ _ Pa Pb GX G0 Em). }
      set (xa := mkSS p1 ma sm (ss_log wa ++ [d])). set (xb := mkSS p1 mb sm (ss_log wb ++ [d])).
      assert (HA : handle_sensor_data (fun w d => Ok (ss_update w d)) (ss_observe sm_reset process adder ql qr (dofZ (Z.of_nat margin))) (fun w => Ok (ss_pose w)) (fun w => Ok (ss_map w)) o wa s
        = Ok (xa, notify_with_pose o p1 ++ notify_with_map o ma)).
      { unfold handle_sensor_data. cbn [bind]. unfold ss_observe. cbn [ss_update ss_pose ss_map ss_sm ss_log]. rewrite Em. cbn [bind ss_update ss_pose ss_map ss_sm ss_log]. fold p1 q. rewrite Ha, Ea'. reflexivity. }
      assert (HBb : handle_sensor_data (fun w d => Ok (ss_update w d)) (ss_observe sm_reset process adder ql qr (dofZ (Z.of_nat margin))) (fun w => Ok (ss_pose w)) (fun w => Ok (ss_map w)) o wb s
        = Ok (xb, notify_with_pose o p1 ++ notify_with_map o mb)).
      { unfold handle_sensor_data. cbn [bind]. unfold ss_observe. cbn [ss_update ss_pose ss_map ss_sm ss_log]. rewrite Emb. cbn [bind ss_update ss_pose ss_map ss_sm ss_log]. rewrite <- Ep. fold p1 q. rewrite Ha, Eb'. reflexivity. }
      destruct (IH o xa xb (l0 ++ l1)) as (o' & wa' & wb' & na & nb & Ra & Rb & P & Q & L & C & N); auto.
      { unfold xa, xb. cbn [ss_log]. rewrite El. reflexivity. }
      { intros h1' s' h2' o1 w2' n1 Eh Er. eapply (HG (EScan s :: h1')); [rewrite Eh; reflexivity|]. cbn [world_run]. rewrite HA. cbn [bind]. rewrite Er. cbn [bind]. reflexivity. }
      cbn [world_run]. rewrite HA, HBb. cbn [bind]. rewrite Ra, Rb. cbn [bind].
      exists o', wa', wb', ((notify_with_pose o p1 ++ notify_with_map o ma) ++ na), ((notify_with_pose o p1 ++ notify_with_map o mb) ++ nb).
      do 2 (split; [reflexivity|]). do 4 (split; [assumption|]). apply Forall2_app; [apply Forall2_app|exact N].
      + unfold notify_with_pose. induction (wo_pose o) as [|id ids IHi]; [constructor|]. cbn [flat_map]. apply Forall2_app; [|exact IHi]. destruct (locks o id); constructor; [constructor|constructor].
      + unfold notify_with_map. induction (wo_map o) as [|id ids IHi]; [constructor|]. cbn [flat_map]. apply Forall2_app; [|exact IHi]. destruct (locks o id); constructor; [constructor; exact SC|constructor].
  Qed.
End Unbounded.
