(** The common map of the particles through a run (C98). *)
From Coq Require Import Reals ZArith List Bool Lia Lra.
From Flocq Require Import Core.
From Verif.Base Require Import Outcome Num F64Facts.
From Verif.Model Require Import MathUtils Geometry Grid PlainMap LazyMap Cells Sensor ScanAdder Histogram AreaEstimator World ParticleFilter Gmapping Config WholeSlam.
From Verif.Spec Require Import GeometrySpec MapSpec ScanSpec ManyMapsSpec WholeMapSpec GmMapSpec.
From Verif.Proofs Require Import AreaRange HistProofs ParticleProofs LostProofs ScanAdderProofs WholeExact.
Import ListNotations.
Local Open Scope outcome_scope.

Section Steps.
  Context {S M SM G RV : Type}.
  Notation D := F64.
  Variables (dcos dsin : D -> D) (rv_sample : RV -> G -> pose D * RV * G) (rv_copy : RV -> RV) (rv_zero : RV)
    (sm_process : SM -> S -> pose D -> M -> outcome (D * pose D * SM)) (adder : M -> pose D -> S -> D -> D -> outcome M).
  Notation gp := (gparticle D G RV).
  Fixpoint add_all (m : M) (es : list (pose D * S * D)) : outcome M :=
    match es with
    | [] => Ok m
    | (p, s, q) :: es => m <- adder m p s q (dofZ 0) ;; add_all m es
    end.
  Lemma add_all_app m a b : add_all m (a ++ b) = (m <- add_all m a ;; add_all m b).
  Proof. revert m. induction a as [|[[p s] q] a IH]; intros m; cbn [app add_all bind]; [reflexivity|]. destruct (adder m p s q (dofZ 0)); cbn [bind]; auto. Qed.

  Lemma observe_adds m k (x : gp) s maps' k' y : gp_map x = 0%nat -> gp_observe rv_sample sm_process adder [m] k x s = Ok (maps', k', y) ->
    exists es m', maps' = [m'] /\ add_all m es = Ok m' /\ (es = [] \/ es = [(gp_pose y, ts_scan s, ts_quality s)]).
  Proof.
    intros E0. unfold gp_observe. destruct (gp_skips x); [intros X; apply Ok_inj in X; injection X as <- _ _; exists [], m; auto|]. cbv zeta.
    set (x1 := if gp_first x then x else _). assert (E1 : gp_map x1 = 0%nat).
    { unfold x1. destruct (gp_first x); [exact E0|]. destruct (rv_sample _ _) as [[a b] c]. exact E0. }
    clearbody x1. rewrite E1. cbn [nth_error]. destruct (sm_process k (ts_scan s) (gp_pose x1) m) as [[[prob d] k1]| | |]; try discriminate. cbn [bind].
    destruct (_ || _)%bool.
    - destruct (adder m _ _ _ _) as [m1| | |] eqn:Ea; try discriminate. cbn [bind]. unfold gp_reset_sm_delta. cbn [gp_set_weight gp_lim gp_engine].
      destruct (rv_sample _ _) as [[a b] c]. intros X. apply Ok_inj in X. injection X as <- _ <-. exists [(gp_pose (gp_move x1 d), ts_scan s, ts_quality s)], m1.
      split; [cbn [gp_move gp_map]; rewrite E1; reflexivity|]. split; [cbn [add_all]; rewrite Ea; reflexivity|]. right. reflexivity.
    - cbn [bind]. unfold gp_reset_sm_delta. destruct (rv_sample _ _) as [[a b] c]. intros X. apply Ok_inj in X. injection X as <- _ _. exists [], m. auto.
  Qed.

  Definition of_scan (s : tr_scan D S) (e : pose D * S * D) : Prop := snd (fst e) = ts_scan s /\ snd e = ts_quality s.
  Lemma each_adds s ptrs : forall m k h (xs : list gp) maps' k' h', refs h ptrs xs -> NoDup ptrs -> Forall (fun x => gp_map x = 0%nat) xs ->
    gf_observe_each rv_sample sm_process adder [m] k h ptrs s = Ok (maps', k', h') ->
    exists es m' ys, maps' = [m'] /\ add_all m es = Ok m' /\ refs h' ptrs ys /\ length ys = length xs /\
      subseq (map (fun e => fst (fst e)) es) (map gp_pose ys) /\ Forall (of_scan s) es /\ (forall q, ~ In q ptrs -> nth_error h' q = nth_error h q).
  Proof.
    induction ptrs as [|p ptrs IH]; intros m k h xs maps' k' h' F ND FM E; cbn [gf_observe_each] in E.
    - apply Ok_inj in E. injection E as <- <- <-. inversion F; subst. exists [], m, []. do 3 (split; [constructor|]). split; [reflexivity|]. split; [constructor|]. split; [constructor|auto].
    - inversion F as [|? x ? xs' N F']; subst. unfold deref in E. rewrite N in E. cbn [bind] in E. inversion ND as [|? ? Hn ND']; subst. inversion FM as [|? ? M1 M2]; subst.
      destruct (gp_observe rv_sample sm_process adder [m] k x s) as [[[maps1 k1] x1]| | |] eqn:E1; try discriminate. cbn [bind] in E. apply observe_adds in E1 as (e1 & m1 & -> & A1 & C1); [|exact M1].
      assert (B : (p < length h)%nat) by (apply nth_error_Some; congruence).
      destruct (IH _ _ _ xs' _ _ _ (refs_upd_other h ptrs xs' p (fun _ => x1) F' Hn B) ND' M2 E) as (es & m2 & ys & -> & A2 & R & L & SB & FS & O).
      exists (e1 ++ es), m2, (x1 :: ys). split; [reflexivity|]. split; [rewrite add_all_app, A1; exact A2|]. split; [constructor; [|exact R]|].
      + rewrite O by exact Hn. rewrite upd_nth, Nat.eqb_refl, N by exact B. reflexivity.
      + split; [cbn [length]; congruence|]. split; [|split].
        * destruct C1 as [->| ->]; cbn [map app fst]; constructor; exact SB.
        * apply Forall_app. split; [|exact FS]. destruct C1 as [->| ->]; [constructor|]. constructor; [split; reflexivity|constructor].
        * intros q Hq. rewrite O by (intros H; apply Hq; now right). rewrite upd_nth by exact B.
          destruct (Nat.eqb_spec q p) as [->|]; [elim Hq; now left|reflexivity].
  Qed.

  Lemma scan_adds f s samples f' m xs : gf_inv 0 f -> refs (pf_heap (gf_pf f)) (pf_ptrs (gf_pf f)) xs -> gf_maps f = [m] ->
    gf_observe rv_sample rv_copy rv_zero sm_process adder f s samples = Ok f' ->
    exists es m' ps zs, gf_maps f' = [m'] /\ add_all m es = Ok m' /\ length ps = length xs /\ subseq (map (fun e => fst (fst e)) es) ps /\ Forall (of_scan s) es /\
      refs (pf_heap (gf_pf f')) (pf_ptrs (gf_pf f')) zs /\ length zs = length xs /\ Forall (fun z => In (gp_pose z) ps) zs.
  Proof.
    intros (xs0 & R & ND & NE & H1 & HM & HL) RX EM E. assert (X : xs0 = xs) by (apply objects_refs in R; apply objects_refs in RX; congruence). subst xs0.
    unfold gf_observe in E. rewrite EM in E. apply bind_Ok_inv in E as ([[maps k] h] & E1 & E).
    apply (each_adds s _ _ _ _ xs) in E1 as (es & m' & ys & -> & A & R1 & L & SB & FS & _); [|exact R|exact ND|exact HM].
    apply bind_Ok_inv in E as (p & E2 & E).
    destruct (normalize_spec gp_weight gp_set_weight (mkPF h (pf_ptrs (gf_pf f))) ys R1 ND) as (p' & E2' & P2 & _ & R2).
    rewrite E2 in E2'. injection E2' as <-. cbn [pf_ptrs] in P2. set (zs := map _ ys) in R2.
    assert (LZ : length zs = length xs) by (unfold zs; now rewrite map_length).
    assert (Z3 : zs <> []) by (intros H; rewrite H in LZ; destruct xs; [easy|discriminate]).
    assert (FZ : Forall (fun z => In (gp_pose z) (map gp_pose ys)) zs).
    { unfold zs. apply Forall_map. apply Forall_forall. intros y Hy. cbn [gp_set_weight gp_pose]. now apply in_map. }
    assert (ND2 : NoDup (pf_ptrs p)) by (rewrite P2; exact ND).
    exists es, m', (map gp_pose ys). unfold gf_try_resample in E. cbn [gf_trav gf_pf gf_maps gf_sm] in E. rewrite map_length.
    destruct (_ && _)%bool in E.
    - injection E as <-. exists zs. cbn [gf_pf gf_maps]. auto 12.
    - apply bind_Ok_inv in E as ([p1 b] & E3 & E).
      assert (T := try_resample_spec gp_weight gp_set_weight (gp_duplicate rv_copy) p zs samples R2 ND2 Z3).
      destruct (resampling_is_required (map gp_weight zs)) eqn:RR.
      + destruct T as (p2 & E3' & ND3 & R3). rewrite E3 in E3'. injection E3' as -> ->. cbn [negb] in E.
        cbv zeta in R3. set (ts := taken _ _ _ _) in R3.
        assert (NEw : map gp_weight zs <> []) by (destruct zs; [easy|discriminate]).
        assert (B := resample_bound (map gp_weight zs) samples NEw). rewrite map_length in B.
        assert (LT : length ts = length xs) by (unfold ts; rewrite taken_length, resample_length by exact B; now rewrite map_length).
        assert (FT : Forall (fun z => In (gp_pose z) (map gp_pose ys)) ts).
        { unfold ts. apply taken_all; [intros z Hz; exact Hz|exact FZ]. }
        apply bind_Ok_inv in E as (p3 & E4 & E). injection E as <-. cbn [gf_pf gf_maps].
        set (us := map _ ts) in R3.
        assert (LU : length us = length xs) by (unfold us; now rewrite map_length).
        assert (NEU : us <> []) by (intros H; rewrite H in LU; destruct xs; [easy|discriminate]).
        assert (FU : Forall (fun z => In (gp_pose z) (map gp_pose ys)) us) by (unfold us; apply Forall_map; exact FT).
        unfold gf_ensure_master in E4. rewrite (proj2 (objects_refs _ _ _) R3) in E4. cbn [bind] in E4.
        destruct (existsb gp_master us).
        * injection E4 as <-. exists us. auto 12.
        * destruct (heaviest_ptr_ok gp_weight p2 us R3 NEU) as (i & q & x & Ep & _ & Np & Nx & _). rewrite Ep in E4. cbn [bind] in E4. injection E4 as <-. cbn [pf_heap pf_ptrs].
          exists (upd us i (gp_mark_master rv_zero)). split; [reflexivity|]. do 4 (split; [assumption|]). split; [now apply refs_upd_at|]. split; [now rewrite upd_length|].
          apply upd_Forall; [exact FU|]. intros z Hz. exact Hz.
      + rewrite E3 in T. injection T as -> ->. cbn [negb] in E. injection E as <-. exists zs. cbn [gf_pf gf_maps]. auto 12.
  Qed.
End Steps.

Section Runs.
  Context {SM G RV : Type}.
  Variables (proto : acell F64) (grow : Z -> Z -> coord -> coord -> Z * Z * coord) (impact : acell F64 -> F64) (bound : nat).
  Variables (shift nan : F64) (acos asin aacos : F64 -> F64) (mpi : F64) (datan2 : F64 -> F64 -> F64) (k : adder_config F64).
  Variables (dcos dsin : F64 -> F64) (rv_sample : RV -> G -> pose F64 * RV * G) (rv_copy : RV -> RV) (rv_zero : RV).
  Variable sm_process : SM -> whole_scan F64 -> pose F64 -> amap F64 -> outcome (F64 * pose F64 * SM).
  Notation adder := (whole_append proto grow impact bound shift nan acos asin aacos mpi datan2 k).
  Notation wadder := (watching_adder adder).
  Notation run := (gf_run dcos dsin rv_sample rv_copy rv_zero (watching_sm sm_process) wadder).
  Definition entry_tuple (e : entry) : pose F64 * whole_scan F64 * F64 := (en_pose e, en_scan e, en_quality e).
  Definition tuple_entry (t : pose F64 * whole_scan F64 * F64) : entry := mkEntry (fst (fst t)) (snd (fst t)) (snd t).
  Lemma tuples l : map entry_tuple (map tuple_entry l) = l.
  Proof. rewrite map_map. rewrite <- map_id. apply map_ext. intros [[p s] q]. reflexivity. Qed.

  Lemma watched_adds es : forall m l ml, add_all wadder (m, l) es = Ok ml -> exists m', add_all adder m es = Ok m' /\ ml = (m', l ++ map tuple_entry es).
  Proof.
    induction es as [|[[p s] q] es IH]; intros m l ml; cbn [add_all map].
    - intros X. apply Ok_inj in X. exists m. rewrite app_nil_r. auto.
    - unfold watching_adder at 1. cbn [fst snd]. destruct (adder m p s q (dofZ 0)) as [m1| | |]; try discriminate. cbn [bind]. intros X. apply IH in X as (m' & A & ->).
      exists m'. split; [exact A|]. rewrite <- app_assoc. reflexivity.
  Qed.
  (** the state after the scans [seen]: pose and map *)
  Definition after (m0 : amap F64) (f : gfilter F64 watched_map SM G RV) (seen : list gm_step) : Prop :=
    exists m p, gf_map f = Ok (m, added seen) /\ gf_pose f = Ok p /\ add_all adder m0 (map entry_tuple (added seen)) = Ok m /\
      (forall s0 st, seen = s0 ++ [st] -> In p (st_poses st)).
  Lemma state_after m0 (f : gfilter F64 watched_map SM G RV) seen xs m : gf_inv 0 f -> refs (pf_heap (gf_pf f)) (pf_ptrs (gf_pf f)) xs -> gf_maps f = [(m, added seen)] ->
    add_all adder m0 (map entry_tuple (added seen)) = Ok m -> (forall s0 st, seen = s0 ++ [st] -> Forall (fun z => In (gp_pose z) (st_poses st)) xs) -> after m0 f seen.
  Proof.
    intros (xs0 & R & ND & NE & H1 & HM & HL) RX EM EA HP. assert (X : xs0 = xs) by (apply objects_refs in R; apply objects_refs in RX; congruence). subst xs0.
    destruct (heaviest_ptr_ok gp_weight (gf_pf f) xs R NE) as (i & q & x & Ep & _ & Np & Nx & _).
    assert (Dq : deref (pf_heap (gf_pf f)) q = Ok x).
    { unfold deref. clear - R Np Nx. revert i Np Nx. unfold refs in R. induction R as [|p y ps ys E R IH]; intros [|i] Np Nx; try discriminate; cbn in Np, Nx.
      - injection Np as ->. injection Nx as ->. rewrite E. reflexivity.
      - eapply IH; eassumption. }
    assert (Hx : In x xs) by (eapply nth_error_In; exact Nx).
    exists m, (gp_pose x). unfold gf_map, gf_pose. rewrite Ep. cbn [bind]. rewrite Dq. cbn [bind]. rewrite Forall_forall in HM. rewrite (HM x Hx), EM. cbn [nth_error].
    do 3 (split; [auto|]). intros s0 st Es. specialize (HP s0 st Es). rewrite Forall_forall in HP. auto.
  Qed.

  Lemma gm_run m0 n : forall hist o (f : gfilter F64 watched_map SM G RV) o' f' notes seen0 xs m, gf_inv 0 f -> refs (pf_heap (gf_pf f)) (pf_ptrs (gf_pf f)) xs -> length xs = n -> gf_maps f = [(m, added seen0)] ->
    add_all adder m0 (map entry_tuple (added seen0)) = Ok m -> (forall s0 st, seen0 = s0 ++ [st] -> Forall (fun z => In (gp_pose z) (st_poses st)) xs) ->
    run o f hist = Ok (o', f', notes) ->
    exists steps, Forall2 (step_of n) (all_scans hist) steps /\
      forall h1 h2, hist = h1 ++ h2 -> exists o1 f1 n1, run o f h1 = Ok (o1, f1, n1) /\ after m0 f1 (seen0 ++ firstn (length (all_scans h1)) steps).
  Proof.
    unfold gf_run. induction hist as [|ev hist IH]; intros o f o' f' notes seen0 xs m I RX LX EM EA HP E.
    - exists []. split; [constructor|]. intros h1 h2 Eh. destruct h1; [|discriminate]. exists o, f, []. split; [reflexivity|]. cbn [all_scans flat_map length firstn]. rewrite app_nil_r.
      eapply state_after; eassumption.
    - destruct ev as [id|id|id|s].
      1-3: (cbn [world_run] in E; destruct (IH _ _ _ _ _ _ _ _ I RX LX EM EA HP E) as (steps & F & H); exists steps; split; [exact F|];
        intros h1 h2 Eh; destruct h1 as [|e1 h1]; [exists o, f, []; split; [reflexivity|]; cbn [all_scans flat_map length firstn]; rewrite app_nil_r; eapply state_after; eassumption|];
        cbn [app] in Eh; injection Eh as <- Eh; cbn [world_run all_scans flat_map app]; exact (H h1 h2 Eh)).
      cbn [world_run] in E. apply bind_Ok_inv in E as ([w2 n2] & E1 & E). apply bind_Ok_inv in E as ([[o3 w3] n3] & E3 & E).
      assert (EH := E1). unfold handle_sensor_data in E1. apply bind_Ok_inv in E1 as (f1 & Eu & E1). apply bind_Ok_inv in E1 as (f2 & Eo & E1).
      apply bind_Ok_inv in E1 as (pp & _ & E1). apply bind_Ok_inv in E1 as (mm & _ & E1). apply Ok_inj in E1. injection E1 as <- <-.
      destruct (update_weights dcos dsin 0 f (ts_delta s) f1 xs I RX Eu) as (I1 & _ & R1).
      assert (EM1 : gf_maps f1 = [(m, added seen0)]) by (unfold gf_update in Eu; apply bind_Ok_inv in Eu as (hh & _ & Eu); apply Ok_inj in Eu; rewrite <- Eu; exact EM).
      assert (I2 := gf_observe_inv rv_sample rv_copy rv_zero (watching_sm sm_process) wadder 0 f1 _ _ f2 I1 Eo).
      destruct (scan_adds rv_sample rv_copy rv_zero (watching_sm sm_process) wadder f1 _ _ f2 _ _ I1 R1 EM1 Eo) as (es & ml & ps & zs & EM2 & A2 & LP & SB & FS & R2 & LZ & FZ).
      apply watched_adds in A2 as (m' & A2 & ->).
      rewrite map_length in LP, LZ. set (st := mkStep ps (map tuple_entry es)).
      assert (EA2 : add_all adder m0 (map entry_tuple (added (seen0 ++ [st]))) = Ok m').
      { unfold added. rewrite flat_map_app, map_app, add_all_app. change (flat_map st_added seen0) with (added seen0). rewrite EA. cbn [bind flat_map st st_added]. rewrite app_nil_r, tuples. exact A2. }
      assert (EM2' : gf_maps f2 = [(m', added (seen0 ++ [st]))]) by (rewrite EM2; unfold added; rewrite flat_map_app; cbn [flat_map st st_added]; rewrite app_nil_r; reflexivity).
      assert (HP2 : forall s0 x, seen0 ++ [st] = s0 ++ [x] -> Forall (fun z => In (gp_pose z) (st_poses x)) zs).
      { intros s0 x Es. apply app_inj_tail in Es as [_ <-]. exact FZ. }
      destruct (IH o f2 o3 w3 n3 (seen0 ++ [st]) zs m' I2 R2 ltac:(congruence) EM2' EA2 HP2 E3) as (steps & F & H).
      exists (st :: steps). split.
      + cbn [all_scans flat_map app]. constructor; [|exact F]. unfold step_of. cbn [st st_poses st_added]. split; [congruence|]. split.
        * rewrite map_map. exact SB.
        * apply Forall_map. eapply Forall_impl; [|exact FS]. intros [[p c] q] [Q1 Q2]. split; [exact Q1|exact Q2].
      + intros h1 h2 Eh. destruct h1 as [|e1 h1]; [exists o, f, []; split; [reflexivity|]; cbn [all_scans flat_map length firstn]; rewrite app_nil_r; eapply state_after; eassumption|].
        cbn [app] in Eh. injection Eh as <- Eh. destruct (H h1 h2 Eh) as (o1 & f3 & n1 & Er & Af). cbn [world_run]. rewrite EH. cbn [bind]. rewrite Er. cbn [bind].
        do 3 eexists. split; [reflexivity|]. cbn [all_scans flat_map app length firstn]. change (flat_map _ h1) with (all_scans h1). rewrite <- app_assoc in Af. exact Af.
  Qed.

  (** what the additions make of the cells *)
  Variables (kind : map_kind) (w h B : Z).
  Hypothesis (Fs : F_fin (ac_scale k) = true) (Hs : (0 < F2R64 (ac_scale k) <= bpow radix2 900)%R) (Hsize : size_ok kind w h B).
  Notation insert := (insertable shift nan acos asin aacos mpi datan2 k 0 (area kind w h B)).
  Notation eobs := (entry_obs shift nan acos asin aacos mpi datan2 k 0).
  Notation updm := (amap_update proto grow impact bound).
  Lemma add_all_updates es : Forall (fun e => insert (en_pose e) (en_scan e)) es ->
    exists l, (forall m, add_all adder m (map entry_tuple es) = run_updates updm l m) /\ (forall u, In u l -> area kind w h B (fst u)) /\ (forall c, obs_at c l = flat_map (fun e => eobs e c) es).
  Proof using Fs Hs Hsize.
    induction 1 as [|e es Hi H IH]; [exists []; split; [reflexivity|]; split; [intros u []|reflexivity]|].
    destruct IH as (l & A & W & O). destruct e as [p s q]. cbn [en_pose en_scan] in Hi.
    destruct (insert_spec proto grow impact bound shift nan acos asin aacos mpi datan2 k 0 Fs Hs kind w h B Hsize p s q Hi) as (l1 & A1 & W1 & O1).
    exists (l1 ++ l). split; [|split].
    - intros m. cbn [map entry_tuple en_pose en_scan en_quality add_all]. change (dofZ 0) with (dofZ (D := F64) (Z.of_nat 0)). rewrite A1, run_updates_app. destruct (run_updates updm l1 m); cbn [bind]; auto.
    - intros u Hu. apply in_app_or in Hu as [Hu|Hu]; auto.
    - intros c. rewrite obs_at_app, O1, O. reflexivity.
  Qed.
  Lemma add_all_cells m0 es m : new_amap proto kind w h = Ok m0 -> Forall (fun e => insert (en_pose e) (en_scan e)) es -> add_all adder m0 (map entry_tuple es) = Ok m ->
    forall c, readable kind w h c -> amap_get m c = Ok (cell_of shift nan acos asin aacos mpi datan2 k 0 proto es c).
  Proof using Fs Hs Hsize.
    intros Hm HF E c Hc. destruct (add_all_updates es HF) as (l & A & W & O). rewrite A in E.
    destruct (kind_refines proto grow impact bound kind w h B l m0 Hsize W Hm) as (m1 & E1 & HR). assert (m1 = m) by congruence. subst m1.
    rewrite HR by exact Hc. unfold cell_of. rewrite O. reflexivity.
  Qed.
End Runs.

(** ** watching changes nothing *)
Section Erase.
  Context {SM G RV : Type}.
  Variables (dcos dsin : F64 -> F64) (rv_sample : RV -> G -> pose F64 * RV * G) (rv_copy : RV -> RV) (rv_zero : RV).
  Variable sm : SM -> whole_scan F64 -> pose F64 -> amap F64 -> outcome (F64 * pose F64 * SM).
  Variable adder : amap F64 -> pose F64 -> whole_scan F64 -> F64 -> F64 -> outcome (amap F64).
  Notation wsm := (watching_sm sm).
  Notation wadder := (watching_adder adder).
  Lemma upd_map {A B} (g : A -> B) (l : list A) i (a : A) b : g a = b -> map g (upd l i (fun _ => a)) = upd (map g l) i (fun _ => b).
  Proof.
    intros H. unfold upd. rewrite nth_error_map. destruct (nth_error l i); [|reflexivity]. cbn [option_map]. rewrite map_app. cbn [map]. rewrite firstn_map, skipn_map, H. reflexivity.
  Qed.
  Definition drop3 {A} (r : list watched_map * SM * A) : list (amap F64) * SM * A := (map fst (fst (fst r)), snd (fst r), snd r).
  Lemma gp_erase maps k (x : gparticle F64 G RV) s :
    gp_observe rv_sample sm adder (map fst maps) k x s = omap drop3 (gp_observe rv_sample wsm wadder maps k x s).
  Proof.
    unfold gp_observe. destruct (gp_skips x); [reflexivity|]. cbv zeta. set (x1 := if gp_first x then x else _). clearbody x1.
    rewrite nth_error_map. destruct (nth_error maps (gp_map x1)) as [[m l]|]; [|reflexivity]. cbn [option_map fst]. unfold watching_sm at 1. cbn [fst].
    destruct (sm k (ts_scan s) (gp_pose x1) m) as [[[prob d] k1]| | |]; try reflexivity. cbn [bind].
    destruct (_ || _)%bool; [|reflexivity]. unfold watching_adder at 1. cbn [fst snd]. destruct (adder _ _ _ _ _) as [m1| | |]; try reflexivity.
    unfold omap, drop3. cbn [bind fst snd]. rewrite (upd_map fst maps _ (m1, _) m1) by reflexivity. reflexivity.
  Qed.
  Lemma each_erase s ptrs : forall maps k h,
    gf_observe_each rv_sample sm adder (map fst maps) k h ptrs s = omap drop3 (gf_observe_each rv_sample wsm wadder maps k h ptrs s).
  Proof.
    induction ptrs as [|p ptrs IH]; intros maps k h; cbn [gf_observe_each]; [reflexivity|]. destruct (deref h p) as [x| | |]; try reflexivity. cbn [bind].
    rewrite gp_erase. destruct (gp_observe rv_sample wsm wadder maps k x s) as [[[maps1 k1] x1]| | |]; try reflexivity. unfold omap at 1, drop3 at 1. cbn [bind fst snd]. apply IH.
  Qed.
  Lemma observe_erase f s samples :
    gf_observe rv_sample rv_copy rv_zero sm adder (unwatched f) s samples = omap unwatched (gf_observe rv_sample rv_copy rv_zero wsm wadder f s samples).
  Proof.
    unfold gf_observe. cbn [unwatched gf_maps gf_pf gf_sm gf_trav]. rewrite each_erase.
    destruct (gf_observe_each rv_sample wsm wadder (gf_maps f) (gf_sm f) _ _ s) as [[[maps k] h]| | |]; try reflexivity. unfold omap at 1, drop3. cbn [bind fst snd].
    destruct (normalize_weights _ _ _) as [p| | |]; try reflexivity. cbn [bind]. unfold gf_try_resample. cbn [gf_trav gf_pf gf_maps gf_sm]. destruct (_ && _)%bool; [reflexivity|].
    destruct (pf_try_resample _ _ _ _ _) as [[p1 b]| | |]; try reflexivity. cbn [bind]. destruct (negb b); [reflexivity|]. destruct (gf_ensure_master _ _); reflexivity.
  Qed.
  Lemma update_erase (f : gfilter F64 watched_map SM G RV) d : gf_update dcos dsin (unwatched f) d = omap unwatched (gf_update dcos dsin f d).
  Proof. unfold gf_update. cbn [unwatched gf_maps gf_pf gf_sm gf_trav]. destruct (gf_each _ _ _); reflexivity. Qed.
  Lemma pose_erase (f : gfilter F64 watched_map SM G RV) : gf_pose (unwatched f) = gf_pose f.
  Proof. reflexivity. Qed.
  Lemma map_erase (f : gfilter F64 watched_map SM G RV) : gf_map (unwatched f) = omap fst (gf_map f).
  Proof.
    unfold gf_map. cbn [unwatched gf_maps gf_pf gf_sm gf_trav]. destruct (heaviest_ptr _ _); try reflexivity. cbn [bind]. destruct (deref _ _); try reflexivity. cbn [bind].
    rewrite nth_error_map. destruct (nth_error _ _); reflexivity.
  Qed.
  Definition unwatched_end (r : wobservers * gfilter F64 watched_map SM G RV * list (wnote F64 watched_map)) : wobservers * gfilter F64 (amap F64) SM G RV * list (wnote F64 (amap F64)) :=
    (fst (fst r), unwatched (snd (fst r)), map unwatched_note (snd r)).
  Lemma notes_erase o (m : watched_map) : notify_with_map (D := F64) o (fst m) = map unwatched_note (notify_with_map o m).
  Proof. unfold notify_with_map. induction (wo_map o) as [|id ids IH]; [reflexivity|]. cbn [flat_map]. rewrite map_app, IH. destruct (locks o id); reflexivity. Qed.
  Lemma poses_erase o p : notify_with_pose (M := amap F64) o p = map unwatched_note (notify_with_pose o p).
  Proof. unfold notify_with_pose. induction (wo_pose o) as [|id ids IH]; [reflexivity|]. cbn [flat_map]. rewrite map_app, IH. destruct (locks o id); reflexivity. Qed.
  Lemma run_erase : forall h o f,
    gf_run dcos dsin rv_sample rv_copy rv_zero sm adder o (unwatched f) h = omap unwatched_end (gf_run dcos dsin rv_sample rv_copy rv_zero wsm wadder o f h).
  Proof.
    unfold gf_run. induction h as [|[id|id|id|s] h IH]; intros o f; cbn [world_run]; [reflexivity|apply IH|apply IH|apply IH|].
    unfold handle_sensor_data. rewrite update_erase. destruct (gf_update dcos dsin f (ts_delta s)) as [f1| | |]; try reflexivity. unfold omap at 1. cbn [bind].
    rewrite observe_erase. destruct (gf_observe rv_sample rv_copy rv_zero wsm wadder f1 _ _) as [f2| | |]; try reflexivity. unfold omap at 1. cbn [bind].
    rewrite pose_erase. destruct (gf_pose f2) as [p| | |]; try reflexivity. cbn [bind]. rewrite map_erase. destruct (gf_map f2) as [m| | |]; try reflexivity. unfold omap at 1. cbn [bind].
    rewrite IH. destruct (world_run _ _ _ _ o f2 h) as [[[o' f'] n]| | |]; try reflexivity. unfold omap, unwatched_end. cbn [bind fst snd]. rewrite !map_app, <- notes_erase, <- poses_erase. reflexivity.
  Qed.
End Erase.
