(** Whole runs keep what the cells of the map report (C94). *)
From Coq Require Import Reals ZArith List Bool Lia Lra.
From Verif.Base Require Import Outcome Num.
From Verif.Model Require Import MathUtils Geometry Grid PlainMap LazyMap Cells Sensor ScanAdder Histogram AreaEstimator Pyramid World ParticleFilter Gmapping Render Config WholeSlam.
From Verif.Spec Require Import CellSpec WholeSpec.
From Verif.Proofs Require Import AreaRange CellProofs TbmFloatProofs WholeProofs WholeObs WholeMaps RenderProofs.
Import ListNotations.

(** ** any world *)
Section Run.
  Context {D S M W : Type} {ops : DOps D}.
  Variables (w_update : W -> pose D -> outcome W) (w_observe : W -> tr_scan D S -> outcome W).
  Variables (w_pose : W -> outcome (pose D)) (w_map : W -> outcome M).
  Variables (Inv : W -> Prop) (Good : M -> Prop) (Sok : tr_scan D S -> Prop).
  Hypothesis Hu : forall w d w', Inv w -> w_update w d = Ok w' -> Inv w'.
  Hypothesis Ho : forall w s w', Inv w -> Sok s -> w_observe w s = Ok w' -> Inv w'.
  Hypothesis Hm : forall w m, Inv w -> w_map w = Ok m -> Good m.
  Lemma run_inv : forall h o w o' w' n, Inv w -> (forall s, In (EScan s) h -> Sok s) ->
    world_run w_update w_observe w_pose w_map o w h = Ok (o', w', n) ->
    Inv w' /\ forall id m, In (NMap id m) n -> Good m.
  Proof using Hu Ho Hm.
    induction h as [|e h IH]; intros o w o' w' n I Hs; cbn [world_run].
    - intros X. apply Ok_inj in X. injection X as _ X2 X3. subst. split; [exact I|]. intros id m [].
    - assert (Hs' : forall s, In (EScan s) h -> Sok s) by (intros s Q; apply Hs; right; exact Q).
      destruct e as [id|id|id|s]; try (apply IH; assumption).
      unfold handle_sensor_data. destruct (w_update w (ts_delta s)) as [w1| | |] eqn:E1; try discriminate. cbn [bind].
      destruct (w_observe w1 s) as [w2| | |] eqn:E2; try discriminate. cbn [bind].
      destruct (w_pose w2) as [p| | |]; try discriminate. cbn [bind].
      destruct (w_map w2) as [m| | |] eqn:E3; try discriminate. cbn [bind].
      assert (I2 : Inv w2). { eapply Ho; [eapply Hu; eassumption| |exact E2]. apply Hs. left. reflexivity. }
      destruct (world_run w_update w_observe w_pose w_map o w2 h) as [[[o1 w3] n']| | |] eqn:E4; try discriminate. cbn [bind].
      intros X. apply Ok_inj in X. injection X as _ X2 X3. subst.
      destruct (IH _ _ _ _ _ I2 Hs' E4) as [A B]. split; [exact A|]. intros id m' Q. apply in_app_or in Q as [Q|Q]; [|eapply B, Q].
      apply in_app_or in Q as [Q|Q].
      + exfalso. unfold notify_with_pose in Q. apply in_flat_map in Q as (x & _ & Q). destruct (locks o x); [|exact Q]. destruct Q as [Q|[]]. discriminate Q.
      + unfold notify_with_map in Q. apply in_flat_map in Q as (x & _ & Q). destruct (locks o x); [|destruct Q]. destruct Q as [Q|[]]. assert (Q' : m = m') by congruence. subst m'. eapply Hm; [exact I2|exact E3].
  Qed.
End Run.

Section WholeRun.
  Variables (proto : acell F64) (infinity : F64) (grow : Z -> Z -> coord -> coord -> Z * Z * coord).
  Variables (impact : acell F64 -> F64) (bound : nat).
  Variables (shift nan : F64) (dcos dsin dacos : F64 -> F64) (mpi : F64) (datan2 : F64 -> F64 -> F64).
  Variable k : adder_config F64.
  Hypothesis Hproto : prototype proto.
  Hypothesis Hest : est01 (ac_est k).
  Hypothesis Hnan : disnan nan = true.
  Notation adder := (whole_append proto grow impact bound shift nan dcos dsin dacos mpi datan2 k).
  Notation inv := (ainv proto).

  Lemma adder_inv m p s q margin m' : inv m -> probability q -> adder m p s q margin = Ok m' -> inv m'.
  Proof using Hproto Hest Hnan.
    intros I Q. unfold whole_append. destruct (fst s) as [|x xs] eqn:E; [intros X; apply Ok_inj in X; rewrite <- X; exact I|]. rewrite <- E. clear E.
    destruct (omqe_reset dcos dsin dacos mpi (ac_omqe k) (fst s)) as [h| | |] eqn:R; try discriminate. cbn [bind].
    apply (append_scan_inv _ _ _ _ _ _ _ inv).
    - intros m0 c a m1. apply ainv_update. exact Hproto.
    - intros b c o r. apply estimate_ok; assumption.
    - exact Q.
    - intros i q' Q'. exact (omqe_f01 _ _ _ _ _ _ _ _ _ R Q').
    - exact I.
  Qed.
  Lemma fresh_inv m : fresh_map proto infinity m -> inv m.
  Proof using Hproto.
    intros [(kd & w & h & E)|(w & h & s & E)]; [exact (ainv_new proto Hproto _ _ _ _ E)|exact (ainv_rescalable proto infinity Hproto _ _ _ _ E)].
  Qed.
  Lemma inv_reports m : inv m -> map_reports_well proto m.
  Proof using Type. intros I c v E. destruct (ainv_get _ _ _ _ I E) as [[R _] C]. split; assumption. Qed.

  (** ** the single hypothesis world *)
  Lemma ss_run_inv {SM} (sm_reset : SM -> SM) (sm_process : SM -> whole_scan F64 -> pose F64 -> amap F64 -> outcome (F64 * pose F64 * SM)) ql qr margin
      o (w : ss_world F64 (amap F64) SM) h o' w' n :
    probability ql -> probability qr -> inv (ss_map w) ->
    ss_run sm_reset sm_process adder ql qr margin o w h = Ok (o', w', n) ->
    inv (ss_map w') /\ forall id m, In (NMap id m) n -> inv m.
  Proof using Hproto Hest Hnan.
    intros QL QR I. unfold ss_run. apply (run_inv _ _ _ _ (fun w => inv (ss_map w)) inv (fun _ => True)).
    - intros w0 d w1 I0 X. apply Ok_inj in X. rewrite <- X. exact I0.
    - intros w0 s w1 I0 _. unfold ss_observe. destruct (sm_process _ _ _ _) as [[[pr dl] sm]| | |]; try discriminate. cbn [bind].
      destruct (whole_append _ _ _ _ _ _ _ _ _ _ _ _ _ _ _ _ _) as [m1| | |] eqn:E; try discriminate. cbn [bind]. intros X. apply Ok_inj in X. rewrite <- X. cbn [ss_map].
      eapply adder_inv; [|  |exact E]; [exact I0|]. destruct (delta_nonzero dl); assumption.
    - intros w0 m I0 X. apply Ok_inj in X. rewrite <- X. exact I0.
    - exact I.
    - auto.
  Qed.

  (** ** the particle filter *)
  Section Gm.
    Context {SM G RV : Type}.
    Variables (gcos gsin : F64 -> F64) (rv_sample : RV -> G -> pose F64 * RV * G) (rv_copy : RV -> RV) (rv_zero : RV).
    Variable sm_process : SM -> whole_scan F64 -> pose F64 -> amap F64 -> outcome (F64 * pose F64 * SM).
    Definition ginv (f : gfilter F64 (amap F64) SM G RV) : Prop := Forall inv (gf_maps f).
    Lemma gp_observe_inv maps sm p s maps' sm' p' : Forall inv maps -> probability (ts_quality s) ->
      gp_observe rv_sample sm_process adder maps sm p s = Ok (maps', sm', p') -> Forall inv maps'.
    Proof using Hproto Hest Hnan.
      intros I Q. unfold gp_observe. destruct (gp_skips p); [intros X; apply Ok_inj in X; injection X as <- _ _; exact I|].
      match goal with |- context [nth_error maps (gp_map ?x)] => set (p1 := x) end. destruct (nth_error maps (gp_map p1)) as [m|] eqn:N; try discriminate.
      destruct (sm_process sm (ts_scan s) (gp_pose p1) m) as [[[pr dl] sm1]| | |]; try discriminate. cbn [bind].
      destruct (_ || _)%bool.
      - destruct (whole_append _ _ _ _ _ _ _ _ _ _ _ _ _ _ _ _ _) as [m1| | |] eqn:E; try discriminate. cbn [bind]. intros X. apply Ok_inj in X. injection X as <- _ _.
        apply Forall_upd; [exact I|]. intros _ _. eapply adder_inv; [|exact Q|exact E]. exact (Forall_in _ _ _ I (nth_error_In _ _ N)).
      - cbn [bind]. intros X. apply Ok_inj in X. injection X as <- _ _. exact I.
    Qed.
    Lemma gf_each_inv s : probability (ts_quality s) -> forall ptrs maps sm h maps' sm' h', Forall inv maps ->
      gf_observe_each rv_sample sm_process adder maps sm h ptrs s = Ok (maps', sm', h') -> Forall inv maps'.
    Proof using Hproto Hest Hnan.
      intros Q. induction ptrs as [|p ptrs IH]; intros maps sm h maps' sm' h' I; cbn [gf_observe_each]; [intros X; apply Ok_inj in X; injection X as <- _ _; exact I|].
      destruct (ParticleFilter.deref h p) as [x| | |]; try discriminate. cbn [bind].
      destruct (gp_observe rv_sample sm_process adder maps sm x s) as [[[maps1 sm1] x1]| | |] eqn:E; try discriminate. cbn [bind].
      apply IH. eapply gp_observe_inv; eassumption.
    Qed.
    Lemma gf_run_inv o f h o' f' n : ginv f -> (forall s, In (EScan s) h -> probability (ts_quality s)) ->
      gf_run gcos gsin rv_sample rv_copy rv_zero sm_process adder o f h = Ok (o', f', n) ->
      ginv f' /\ forall id m, In (NMap id m) n -> inv m.
    Proof using Hproto Hest Hnan.
      intros I Hs. unfold gf_run. apply (run_inv _ _ _ _ ginv inv (fun s => probability (ts_quality s))); auto.
      - intros w d w' Iw. unfold gf_update. destruct (gf_each _ _ _) as [h1| | |]; try discriminate. cbn [bind]. intros X. apply Ok_inj in X. rewrite <- X. exact Iw.
      - intros w s w' Iw Q. unfold gf_observe. destruct (gf_observe_each _ _ _ _ _ _ _ _) as [[[maps sm] h1]| | |] eqn:E; try discriminate. cbn [bind].
        apply gf_each_inv in E; [|exact Q|exact Iw]. destruct (normalize_weights _ _ _) as [p| | |]; try discriminate. cbn [bind].
        unfold gf_try_resample. cbn [gf_trav gf_pf gf_maps gf_sm]. destruct (_ && _)%bool; [intros X; apply Ok_inj in X; rewrite <- X; exact E|].
        destruct (pf_try_resample _ _ _ _ _) as [[p1 r]| | |]; try discriminate. cbn [bind].
        destruct (negb r); [intros X; apply Ok_inj in X; rewrite <- X; exact E|].
        destruct (gf_ensure_master _ _) as [p2| | |]; try discriminate. cbn [bind]. intros X. apply Ok_inj in X. rewrite <- X. exact E.
      - intros w m Iw. unfold gf_map. destruct (heaviest_ptr _ _) as [p| | |]; try discriminate. cbn [bind].
        destruct (ParticleFilter.deref _ _) as [x| | |]; try discriminate. cbn [bind]. destruct (nth_error _ _) as [m1|] eqn:N; try discriminate.
        intros X. apply Ok_inj in X. subst m1. exact (Forall_in _ _ _ Iw (nth_error_In _ _ N)).
    Qed.
  End Gm.
End WholeRun.

(** ** published grids *)
Lemma for_up_Forall {A} (P : A -> Prop) hi body : (forall i l, body i = Ok l -> Forall P l) -> forall fuel i l, for_up fuel i hi body = Ok l -> Forall P l.
Proof.
  intros H. induction fuel as [|fuel IH]; intros i l; cbn [for_up]; [discriminate|]. destruct (i <? hi)%Z; [|intros X; apply Ok_inj in X; rewrite <- X; constructor].
  destruct (body i) as [a| | |] eqn:E; try discriminate. cbn [bind]. destruct (for_up fuel (i + 1) hi body) as [r| | |] eqn:R; try discriminate. cbn [bind].
  intros X. apply Ok_inj in X. rewrite <- X. apply Forall_app. split; [eapply H, E|eapply IH, R].
Qed.
Lemma reports_entry (v : acell F64) : reports_well v ->
  (exists e, grid_entry (acell_prob v) = Ok e /\ grid_byte e) \/ (is_consistent v /\ forall e, grid_entry (acell_prob v) <> Ok e).
Proof.
  intros R. assert (K : F_fin (acell_prob v) = true -> (0 <= F2R64 (acell_prob v) <= 1)%R -> exists e, grid_entry (acell_prob v) = Ok e /\ grid_byte e).
  { intros F B. destruct (entry_val _ F B) as [E Q]. eexists. split; [exact E|right; exact Q]. }
  unfold reports_well in R. destruct (c_unknown (acell_base v)).
  - left. destruct R as [F E]. unfold unknown_value in E. destruct v; try (apply K; [exact F|rewrite E; lra]).
    exists (-1)%Z. split; [|left; reflexivity]. apply entry_unknown. destruct F_m1f as [Fm Em]. apply (F64Facts.F_eq_fin _ _ F Fm). rewrite E, Em. reflexivity.
  - destruct R as [[F B]|[C N]]; [left; apply K; assumption|]. right. split; [exact C|]. intros e. unfold grid_entry.
    destruct (acell_prob v) as [s|s|s pl q|s m e' q]; try discriminate N. cbn. discriminate.
Qed.
Lemma grid_bytes proto m w h origin data : map_reports_well proto m ->
  grid_data (fun c => v <- amap_get m c ;; Ok (acell_prob v))%out w h origin = Ok data -> Forall grid_byte data.
Proof.
  intros R. unfold grid_data. apply for_up_Forall. intros y l. apply for_up_Forall. intros x l'.
  destruct (amap_get m (x, y)) as [v| | |] eqn:E; try discriminate. cbn [bind]. destruct (reports_entry v (proj2 (R _ _ E))) as [(e & G & B)|[_ G]].
  - rewrite G. cbn [bind]. intros X. apply Ok_inj in X. rewrite <- X. constructor; [exact B|constructor].
  - destruct (grid_entry (acell_prob v)) as [e| | |] eqn:Q; try discriminate. exfalso. exact (G e eq_refl).
Qed.
Lemma for_up_total {A} lo hi body : (forall i, (lo <= i < hi)%Z -> exists l : list A, body i = Ok l) ->
  forall fuel i, (lo <= i)%Z -> (Z.to_nat (hi - i) < fuel)%nat -> exists l, for_up fuel i hi body = Ok l.
Proof.
  intros H. induction fuel as [|fuel IH]; intros i Hi L; [lia|]. cbn [for_up]. destruct (Z.ltb_spec i hi) as [Q|Q]; [|eexists; reflexivity].
  destruct (H i ltac:(lia)) as [a E]. rewrite E. cbn [bind]. destruct (IH (i + 1)%Z ltac:(lia) ltac:(lia)) as [r R]. rewrite R. eexists. reflexivity.
Qed.
Lemma grid_published proto m w h origin : ~ is_consistent proto -> map_reports_well proto m -> (0 <= w)%Z -> (0 <= h)%Z ->
  (forall x y, (- cx origin <= x < w - cx origin)%Z -> (- cy origin <= y < h - cy origin)%Z -> exists v, amap_get m (x, y) = Ok v) ->
  exists data, grid_data (fun c => v <- amap_get m c ;; Ok (acell_prob v))%out w h origin = Ok data /\ Forall grid_byte data.
Proof.
  intros NC R Hw Hh H.
  enough (Q : exists data, grid_data (fun c => v <- amap_get m c ;; Ok (acell_prob v))%out w h origin = Ok data).
  { destruct Q as [data Q]. exists data. split; [exact Q|]. eapply grid_bytes; eassumption. }
  unfold grid_data. apply (for_up_total (- cy origin)); [|lia|lia]. intros y Hy. apply (for_up_total (- cx origin)); [|lia|lia]. intros x Hx.
  destruct (H x y Hx Hy) as [v E]. rewrite E. cbn [bind]. destruct (R _ _ E) as [C Rv]. destruct (reports_entry v Rv) as [(e & G & B)|[[t Ct] _]].
  - rewrite G. eexists. reflexivity.
  - exfalso. apply NC. rewrite Ct in C. destruct proto; try contradiction C. eexists. reflexivity.
Qed.
