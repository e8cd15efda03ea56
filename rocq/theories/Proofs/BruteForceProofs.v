(** Proofs about the brute force pose enumerator. *)
From Coq Require Import ZArith List Bool Lia Reals Lra.
From Flocq Require Import Core.
From Verif.Base Require Import Outcome Num F64Facts OrdLaws.
From Verif.Model Require Import MathUtils Geometry PlainMap Sensor Matchers.
From Verif.Spec Require Import MatchSpec.
Import ListNotations.
Local Open Scope Z_scope.
Local Open Scope outcome_scope.

Section Run.
  Context {D : Type} {ops : DOps D} {E : Type}.
  Variable en : enumerator D E.
  Variable score : pose D -> D.
  Variable obs : observers.

  (** one loop iteration *)
  Definition pe_step (st : E * pose D * D * list (pose D) * list (Z * event D)) :=
    let '(e, best, prob, tested, out) := st in
    let '(p, e) := e_next en e best in
    let s := score p in
    let out := out ++ notify obs [EvTest p s] in
    let ok := dlt prob s in
    let e := e_feedback en e ok in
    if ok then (e, p, s, tested ++ [p], out ++ notify obs [EvUpdate p s]) else (e, best, prob, tested ++ [p], out).
  Definition st_e (st : E * pose D * D * list (pose D) * list (Z * event D)) : E := let '(e, _, _, _, _) := st in e.
  Definition st_tested (st : E * pose D * D * list (pose D) * list (Z * event D)) : list (pose D) :=
    let '(_, _, _, t, _) := st in t.
  Definition run_loop fuel (st : E * pose D * D * list (pose D) * list (Z * event D)) :=
    let '(e, best, prob, tested, out) := st in pe_loop en score obs fuel e best prob tested out.

  Lemma run_loop_stop fuel st : e_has_next en (st_e st) = false -> run_loop fuel st = Ok st.
  Proof. destruct st as [[[[e b] p] t] o]. cbn. intros H. destruct fuel; cbn; rewrite H; reflexivity. Qed.
  Lemma run_loop_step fuel st : e_has_next en (st_e st) = true -> run_loop (S fuel) st = run_loop fuel (pe_step st).
  Proof.
    destruct st as [[[[e b] p] t] o]. cbn. intros H. rewrite H. destruct (e_next en e b) as [q e1].
    destruct (dlt p (score q)); reflexivity.
  Qed.
  Lemma run_loop_out st : e_has_next en (st_e st) = true -> run_loop 0 st = OutOfFuel.
  Proof. destruct st as [[[[e b] p] t] o]. cbn. intros H. rewrite H. reflexivity. Qed.

  (** a run: the states passed through *)
  Inductive runs : (E * pose D * D * list (pose D) * list (Z * event D)) -> nat ->
                   (E * pose D * D * list (pose D) * list (Z * event D)) -> Prop :=
  | runs_0 st : runs st 0 st
  | runs_S st n st' : e_has_next en (st_e st) = true -> runs (pe_step st) n st' -> runs st (S n) st'.

  Lemma runs_app a n b m c : runs a n b -> runs b m c -> runs a (n + m) c.
  Proof. induction 1; intros H'; [exact H'|]. cbn. constructor; auto. Qed.
  Lemma runs_loop a n b fuel : runs a n b -> run_loop (n + fuel) a = run_loop fuel b.
  Proof. induction 1; [reflexivity|]. cbn [Nat.add]. rewrite run_loop_step by auto. exact IHruns. Qed.
  Lemma runs_finish a n b fuel : runs a n b -> e_has_next en (st_e b) = false -> (n <= fuel)%nat -> run_loop fuel a = Ok b.
  Proof.
    intros H Hb Hf. replace fuel with (n + (fuel - n))%nat by lia. rewrite (runs_loop _ _ _ _ H). now apply run_loop_stop.
  Qed.
  Lemma run_loop_runs fuel a b : run_loop fuel a = Ok b -> exists n, (n <= fuel)%nat /\ runs a n b /\ e_has_next en (st_e b) = false.
  Proof.
    revert a. induction fuel as [|fuel IH]; intros a H; destruct (e_has_next en (st_e a)) eqn:Hn.
    - rewrite run_loop_out in H by auto. discriminate.
    - rewrite run_loop_stop in H by auto. injection H as <-. exists 0%nat. repeat split; [lia|constructor|auto].
    - rewrite run_loop_step in H by auto. apply IH in H. destruct H as (n & L & R & Hb).
      exists (S n). repeat split; [lia|now constructor|auto].
    - rewrite run_loop_stop in H by auto. injection H as <-. exists 0%nat. repeat split; [lia|constructor|auto].
  Qed.

  Lemma process_scan_run fuel e init : process_scan en score obs fuel e init =
    ('(e, best, prob, tested, out) <-
       run_loop fuel (e_reset en e, init, score init, [init],
                      notify obs [EvStart init] ++ notify obs [EvTest init (score init); EvUpdate init (score init)]) ;;
     Ok (mkMatch (pose_sub best init) prob e tested best (out ++ notify obs [EvEnd (pose_sub best init) prob]))).
  Proof. reflexivity. Qed.
End Run.

Section BruteForce.
  Context {D : Type} {ops : DOps D}.
  Variable cfg : bf_cfg D.
  Variable score : pose D -> D.
  Variable obs : observers.
  Notation en := (bf_enum cfg).
  Notation step := (pe_step en score obs).
  Notation runs := (runs en score obs).

  (** the run tests exactly [offs] around [b] and ends with the counters [s'] *)
  Definition bf_walk (b : pose D) (s : bf_state D) (offs : list (pose D)) (s' : bf_state D) : Prop :=
    forall best prob tested out, (bf_base s = Some b \/ bf_base s = None /\ best = b) ->
    exists best' prob' out', runs (s, best, prob, tested, out) (length offs) (s', best', prob', tested ++ shifted b offs, out') /\
      (offs <> [] -> bf_base s' = Some b).

  Lemma bf_walk_nil b s : bf_walk b s [] s.
  Proof. intros best prob tested out H. exists best, prob, out. cbn. rewrite app_nil_r. split; [constructor|congruence]. Qed.

  Lemma bf_walk_app b s o1 s1 o2 s2 : bf_walk b s o1 s1 -> bf_walk b s1 o2 s2 -> o1 <> [] -> bf_walk b s (o1 ++ o2) s2.
  Proof.
    intros W1 W2 N best prob tested out H. destruct (W1 best prob tested out H) as (b1 & p1 & t1 & R1 & B1).
    destruct (W2 b1 p1 (tested ++ shifted b o1) t1 (or_introl (B1 N))) as (b2 & p2 & t2 & R2 & B2).
    exists b2, p2, t2. unfold shifted in *. rewrite app_length, map_app, app_assoc. split.
    - eapply runs_app; eauto.
    - intros _. destruct o2 as [|x o2]; [inversion R2; subst; auto|apply B2; discriminate].
  Qed.

  Lemma bf_walk_one b s : bf_has_next cfg s = true ->
    bf_walk b s [mkPose (bf_x s) (bf_y s) (bf_t s)] (bf_feedback cfg (mkBf (Some b) (bf_x s) (bf_y s) (bf_t s)) true).
  Proof.
    intros Hn best prob tested out H.
    assert (E : bf_next s best = (pose_add b (mkPose (bf_x s) (bf_y s) (bf_t s)), mkBf (Some b) (bf_x s) (bf_y s) (bf_t s))).
    { unfold bf_next. destruct H as [->| [-> ->]]; reflexivity. }
    assert (exists best' prob' out', step (s, best, prob, tested, out) =
      (bf_feedback cfg (mkBf (Some b) (bf_x s) (bf_y s) (bf_t s)) true, best', prob',
       tested ++ shifted b [mkPose (bf_x s) (bf_y s) (bf_t s)], out')) as (best' & prob' & out' & HS).
    { unfold pe_step. cbn [e_next bf_enum e_feedback]. rewrite E. destruct (dlt prob _); do 3 eexists; reflexivity. }
    exists best', prob', out'. split.
    - constructor; [exact Hn|]. rewrite HS. constructor.
    - intros _. unfold bf_feedback. cbn. destruct (dlt _ _); [reflexivity|destruct (dlt _ _); reflexivity].
  Qed.

  (** one row *)
  Lemma bf_walk_row b y t xs : dle t (to_t cfg) = true -> forall x base,
    steps_until (step_x cfg) (to_x cfg) x xs ->
    bf_walk b (mkBf base x y t) (map (fun x => mkPose x y t) xs)
      (if dlt y (to_y cfg) then mkBf (Some b) (from_x cfg) (dadd y (step_y cfg)) t
       else mkBf (Some b) (from_x cfg) (from_y cfg) (dadd t (step_t cfg))).
  Proof.
    intros Ht x base H. revert base. induction H as [x Hx|x l Hx H IH]; intros base.
    - pose proof (bf_walk_one b (mkBf base x y t) Ht) as W. unfold bf_feedback in W. cbn [bf_x bf_y bf_t bf_base] in W.
      rewrite Hx in W. exact W.
    - pose proof (bf_walk_one b (mkBf base x y t) Ht) as W. unfold bf_feedback in W. cbn [bf_x bf_y bf_t bf_base] in W.
      rewrite Hx in W. cbn [map]. change (mkPose x y t :: map (fun x => mkPose x y t) l) with ([mkPose x y t] ++ map (fun x => mkPose x y t) l).
      eapply bf_walk_app; [exact W|apply IH|discriminate].
  Qed.

  (** one layer *)
  Lemma bf_walk_layer b t xs ys : dle t (to_t cfg) = true -> steps_until (step_x cfg) (to_x cfg) (from_x cfg) xs ->
    forall y base, steps_until (step_y cfg) (to_y cfg) y ys ->
    bf_walk b (mkBf base (from_x cfg) y t) (flat_map (fun y => map (fun x => mkPose x y t) xs) ys)
      (mkBf (Some b) (from_x cfg) (from_y cfg) (dadd t (step_t cfg))).
  Proof.
    intros Ht Hxs y base H. assert (Nx : xs <> []) by (inversion Hxs; discriminate).
    revert base. induction H as [y Hy|y l Hy H IH]; intros base; cbn [flat_map].
    - rewrite app_nil_r. pose proof (bf_walk_row b y t xs Ht _ base Hxs) as W. rewrite Hy in W. exact W.
    - pose proof (bf_walk_row b y t xs Ht _ base Hxs) as W. rewrite Hy in W.
      eapply bf_walk_app; [exact W|apply IH|]. destruct xs; [congruence|discriminate].
  Qed.

  Lemma bf_walk_all b xs ys ts : steps_until (step_x cfg) (to_x cfg) (from_x cfg) xs ->
    steps_until (step_y cfg) (to_y cfg) (from_y cfg) ys ->
    forall t base, steps_while (step_t cfg) (to_t cfg) t ts ->
    exists s', bf_walk b (mkBf base (from_x cfg) (from_y cfg) t) (offsets xs ys ts) s' /\ bf_has_next cfg s' = false.
  Proof.
    intros Hxs Hys t base H. assert (Nx : xs <> []) by (inversion Hxs; discriminate).
    assert (Ny : ys <> []) by (inversion Hys; discriminate).
    revert base. induction H as [t Ht|t l Ht H IH]; intros base.
    - exists (mkBf base (from_x cfg) (from_y cfg) t). split; [apply bf_walk_nil|exact Ht].
    - destruct (IH (Some b)) as (s' & W & Hn). exists s'. split; [|exact Hn]. cbn [offsets flat_map].
      eapply bf_walk_app; [apply (bf_walk_layer b t xs ys Ht Hxs _ _ Hys)|exact W|].
      destruct ys as [|y ys]; [congruence|]. destruct xs as [|x xs]; [congruence|discriminate].
  Qed.

  (** a whole run of the matcher *)
  Lemma bf_process xs ys ts s init fuel : steps_until (step_x cfg) (to_x cfg) (from_x cfg) xs ->
    steps_until (step_y cfg) (to_y cfg) (from_y cfg) ys -> steps_while (step_t cfg) (to_t cfg) (from_t cfg) ts ->
    (length (offsets xs ys ts) <= fuel)%nat ->
    let b := match bf_base s with Some b => b | None => init end in
    exists r, process_scan en score obs fuel s init = Ok r /\ mr_tested r = init :: shifted b (offsets xs ys ts) /\
      (ts <> [] -> bf_base (mr_enum r) = Some b) /\ bf_has_next cfg (mr_enum r) = false.
  Proof.
    intros Hxs Hys Hts Hf b. destruct (bf_walk_all b xs ys ts Hxs Hys _ (bf_base s) Hts) as (s' & W & Hn).
    rewrite process_scan_run. cbn [e_reset bf_enum]. unfold bf_reset.
    destruct (W init (score init) [init] (notify obs [EvStart init] ++ notify obs [EvTest init (score init); EvUpdate init (score init)]))
      as (b' & p' & o' & HR & HB).
    { subst b. cbn. destruct (bf_base s); auto. }
    rewrite (runs_finish _ _ _ _ _ _ fuel HR Hn Hf). cbn [bind]. eexists. split; [reflexivity|].
    cbn [mr_tested mr_enum]. split; [reflexivity|]. split; [|exact Hn]. intros Nt. apply HB.
    destruct ts as [|t ts]; [congruence|]. inversion Hys; inversion Hxs; discriminate.
  Qed.

  (** a search that never reports exhaustion never ends *)
  Lemma pe_loop_diverges {E} (en' : enumerator D E) (P : E -> Prop) :
    (forall e, P e -> e_has_next en' e = true) ->
    (forall e p ok, P e -> P (e_feedback en' (snd (e_next en' e p)) ok)) ->
    forall fuel e best prob tested out, P e -> pe_loop en' score obs fuel e best prob tested out = OutOfFuel.
  Proof.
    intros H1 H2. induction fuel as [|fuel IH]; intros e best prob tested out He; cbn; rewrite (H1 e He); [reflexivity|].
    specialize (H2 e best). destruct (e_next en' e best) as [p e1]. cbn in H2.
    destruct (dlt prob (score p)); apply IH; apply H2; exact He.
  Qed.
End BruteForce.

(** ** the axes over exact reals *)
Lemma walk_nth (step : R) n : forall v, map (fun k => (v + step + INR k * step)%R) (seq 0 n) = map (fun k => (v + INR k * step)%R) (seq 1 n).
Proof.
  intros v. rewrite <- seq_shift, map_map. apply map_ext. intros k. rewrite S_INR. lra.
Qed.

(** the number of further steps of an axis *)
Definition axis_steps (from to step : R) : nat := Z.to_nat (Zceil ((to - from) / step)).

Lemma Zceil_le_iff x n : (Zceil x <= n)%Z <-> (x <= IZR n)%R.
Proof.
  split.
  - intros H. apply Rle_trans with (IZR (Zceil x)); [apply Zceil_ub|now apply IZR_le].
  - intros H. now apply Zceil_glb.
Qed.

Lemma steps_until_R step to (Hs : (0 < step)%R) : forall n from, n = axis_steps from to step ->
  steps_until step to from (map (fun k => (from + INR k * step)%R) (seq 0 (S n))).
Proof.
  induction n as [|n IH]; intros from Hn; unfold axis_steps in Hn.
  - cbn. replace (from + 0 * step)%R with from by lra. apply su_last. cbn. apply R_lt_false.
    assert (Zceil ((to - from) / step) <= 0)%Z by lia. apply Zceil_le_iff in H.
    apply (Rmult_le_compat_r step) in H; [|lra]. unfold Rdiv in H. rewrite Rmult_assoc, Rinv_l, Rmult_0_l in H by lra. lra.
  - assert (Hd : ((to - (from + step)) / step = (to - from) / step - 1)%R) by (field; lra).
    assert (Hc : Zceil ((to - (from + step)) / step) = (Zceil ((to - from) / step) - 1)%Z).
    { rewrite Hd. apply Zceil_imp. rewrite minus_IZR, minus_IZR.
      pose proof (Zceil_ub ((to - from) / step)). pose proof (Zceil_lb ((to - from) / step)).
      cbn. lra. }
    rewrite (eq_refl : seq 0 (S (S n)) = 0%nat :: seq 1 (S n)). cbn [map INR].
    replace (from + 0 * step)%R with from by lra. rewrite <- walk_nth. apply su_more.
    + cbn. apply R_lt_true. destruct (Rlt_or_le from to) as [H|H]; [exact H|exfalso].
      assert (Zceil ((to - from) / step) <= 0)%Z; [|lia]. apply Zceil_le_iff. cbn.
      apply Rmult_le_reg_r with step; [lra|]. unfold Rdiv. rewrite Rmult_assoc, Rinv_l by lra. lra.
    + cbn [dadd ROps]. apply IH. unfold axis_steps. rewrite Hc. lia.
Qed.

(** the number of values of the rotation axis *)
Definition axis_count (from to step : R) : nat := Z.to_nat (Zfloor ((to - from) / step) + 1).

Lemma steps_while_R step to (Hs : (0 < step)%R) : forall n from, n = axis_count from to step ->
  steps_while step to from (map (fun k => (from + INR k * step)%R) (seq 0 n)).
Proof.
  induction n as [|n IH]; intros from Hn; unfold axis_count in Hn.
  - cbn. apply sw_end. cbn. apply R_le_false. destruct (Rlt_or_le to from) as [H|H]; [exact H|exfalso].
    assert (0 <= Zfloor ((to - from) / step))%Z; [|lia]. apply Zfloor_lub. cbn.
    apply Rmult_le_reg_r with step; [lra|]. unfold Rdiv. rewrite Rmult_assoc, Rinv_l by lra. lra.
  - assert (Hd : ((to - (from + step)) / step = (to - from) / step - 1)%R) by (field; lra).
    assert (Hc : Zfloor ((to - (from + step)) / step) = (Zfloor ((to - from) / step) - 1)%Z).
    { rewrite Hd. apply Zfloor_imp. rewrite plus_IZR, minus_IZR.
      pose proof (Zfloor_ub ((to - from) / step)). pose proof (Zfloor_lb ((to - from) / step)).
      cbn. lra. }
    rewrite (eq_refl : seq 0 (S n) = 0%nat :: seq 1 n). cbn [map INR].
    replace (from + 0 * step)%R with from by lra. rewrite <- walk_nth. apply sw_more.
    + cbn. apply R_le_true. destruct (Rle_or_lt from to) as [H|H]; [exact H|exfalso].
      assert (Zfloor ((to - from) / step) < 0)%Z; [|lia]. apply lt_IZR.
      apply Rle_lt_trans with ((to - from) / step)%R; [apply Zfloor_lb|]. cbn.
      apply Rmult_lt_reg_r with step; [lra|]. unfold Rdiv. rewrite Rmult_assoc, Rinv_l by lra. lra.
    + cbn [dadd ROps]. apply IH. unfold axis_count. rewrite Hc. lia.
Qed.
