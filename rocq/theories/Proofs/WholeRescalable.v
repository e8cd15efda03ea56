(** The rescalable map a run builds, cell by cell (C95). *)
From Coq Require Import Reals ZArith List Bool Lia Lra.
From Flocq Require Import Core.
From Verif.Base Require Import Outcome Num F64Facts.
From Verif.Model Require Import MathUtils Geometry Grid PlainMap LazyMap Cells Sensor ScanAdder Histogram AreaEstimator World Config Pyramid WholeSlam.
From Verif.Spec Require Import GeometrySpec MapSpec ScanSpec ManyMapsSpec WholeMapSpec.
From Verif.Proofs Require Import GridNumProofs ScanAdderProofs WholeExact.
Import ListNotations.
Local Open Scope Z_scope.
Local Open Scope outcome_scope.

Section Finest.
  Context {D C : Type} {ops : DOps D}.
  Variables (proto : C) (grow : Z -> Z -> coord -> coord -> Z * Z * coord) (impact : C -> D) (unk : C -> bool).
  Lemma ensure_keeps (ls ls' : list (level D C)) : ensure_continuous proto ls = Ok ls' -> nth_error ls' 0 = nth_error ls 0.
  Proof using.
    unfold ensure_continuous. destruct (length ls <? 2)%nat eqn:L; [intros E; congruence|].
    destruct (nth_error ls (length ls - 2)) as [pc|]; [|discriminate]. destruct ((lv_w pc <=? 2) && (lv_h pc <=? 2))%bool; [intros E; congruence|].
    intros E. apply bind_Ok_inv in E as (w & _ & E). apply bind_Ok_inv in E as (h & _ & E). apply bind_Ok_inv in E as (l & _ & E).
    injection E as <-. destruct ls; [discriminate L|reflexivity].
  Qed.
  Lemma upd_keeps {A} (ls : list A) id f : (1 <= id)%nat -> nth_error (upd ls id f) 0 = nth_error ls 0.
  Proof using. destruct id; [lia|]. intros _. unfold upd. destruct (nth_error ls (S id)) eqn:N; [|reflexivity]. destruct ls; [discriminate N|reflexivity]. Qed.
  Lemma raise_keeps space v fuel : forall (ls : list (level D C)) id ls', (1 <= id)%nat ->
    raise_levels proto grow impact unk fuel ls id space v = Ok ls' -> nth_error ls' 0 = nth_error ls 0.
  Proof using.
    induction fuel as [|fuel IH]; intros ls id ls' Hid E; cbn [raise_levels] in E; apply bind_Ok_inv in E as (l1 & E1 & E); apply ensure_keeps in E1;
      destruct (nth_error l1 id) as [l|]; try discriminate; try (injection E as <-; exact E1).
    apply bind_Ok_inv in E as (cs & _ & E). destruct (raise_cells grow impact unk l cs v false) as [l' [|]].
    - apply IH in E; [|lia]. rewrite E, upd_keeps by exact Hid. exact E1.
    - injection E as <-. rewrite upd_keeps by exact Hid. exact E1.
  Qed.
  Lemma ceqb a b : reflect (a = b) (coord_eqb a b).
  Proof using.
    destruct a as [a1 a2], b as [b1 b2]. unfold coord_eqb, cx, cy. cbn [fst snd]. destruct (Z.eqb_spec a1 b1), (Z.eqb_spec a2 b2); constructor; congruence.
  Qed.
  (** the finest level after a write *)
  Lemma m3_write_finest fuel p c f p' l : nth_error (py_levels p) 0 = Some l -> m3_write proto grow impact unk fuel p c f = Ok p' ->
    py_active p' = O /\ py_active p = O /\ exists l', nth_error (py_levels p') 0 = Some l' /\
      forall q, lv_cells l' q = if coord_eqb q c then f (lv_cells l c) else lv_cells l q.
  Proof using.
    intros Hl E. unfold m3_write in E. apply bind_Ok_inv in E as (p1 & E1 & E). apply bind_Ok_inv in E as (u & E2 & E).
    unfold assert_ in E2. destruct (Nat.eqb_spec (py_active p1) 0) as [A1|]; [|discriminate]. clear E2.
    unfold py_write in E1. destruct (nth_error (py_levels p) (py_active p)) as [l0|] eqn:E0; [|discriminate]. injection E1 as <-. cbn [py_active py_levels] in *.
    rewrite A1 in *. rewrite Hl in E0. injection E0 as <-.
    assert (HW : nth_error (upd (py_levels p) 0 (fun _ => write_cell grow l c (f (lv_cells l c)))) 0 = Some (write_cell grow l c (f (lv_cells l c)))).
    { destruct (py_levels p); [discriminate|reflexivity]. }
    rewrite HW in E. apply bind_Ok_inv in E as (sp & _ & E). apply bind_Ok_inv in E as (ls & E3 & E). injection E as <-. cbn [py_active py_levels].
    split; [first [exact A1|reflexivity]|]. split; [first [exact A1|reflexivity]|]. apply raise_keeps in E3; [|lia]. rewrite HW in E3. eexists. split; [exact E3|].
    intros q. unfold write_cell. destruct (grow _ _ _ _) as [[w h] o]. reflexivity.
  Qed.
End Finest.

Section Resc.
  Variables (proto : acell F64) (grow : Z -> Z -> coord -> coord -> Z * Z * coord) (impact : acell F64 -> F64) (bound : nat).
  Notation upd := (amap_update proto grow impact bound).
  Lemma resc_updates l : forall p lv m, nth_error (py_levels p) 0 = Some lv -> py_active p = O -> run_updates upd l (MRescalable p) = Ok m ->
    exists p' lv', m = MRescalable p' /\ py_active p' = O /\ nth_error (py_levels p') 0 = Some lv' /\
      forall c, lv_cells lv' c = fold_left acell_upd (obs_at c l) (lv_cells lv c).
  Proof using.
    induction l as [|[c a] l IH]; intros p lv m Hl Ha E; cbn [run_updates] in E.
    - assert (X : MRescalable p = m) by congruence. subst m. exists p, lv. auto.
    - apply bind_Ok_inv in E as (m1 & E1 & E). cbn [amap_update] in E1. apply bind_Ok_inv in E1 as (p1 & E1 & X).
      assert (X' : MRescalable p1 = m1) by congruence. subst m1. clear X.
      destruct (m3_write_finest proto grow impact _ bound p c _ p1 lv Hl E1) as (A1 & _ & lv1 & Hl1 & HC).
      destruct (IH p1 lv1 m Hl1 A1 E) as (p' & lv' & -> & A' & Hl' & HC'). exists p', lv'. do 3 (split; [auto|]). intros q.
      rewrite HC', HC. unfold obs_at. cbn [flat_map fst snd]. destruct (ceqb q c) as [->|N].
      + destruct (coord_eq_dec c c) as [_|N]; [|contradiction]. cbn [app fold_left]. reflexivity.
      + destruct (coord_eq_dec q c) as [E0|_]; [contradiction|]. reflexivity.
  Qed.
End Resc.

(** any map: a run that ends has run the updates of its scans *)
Section Conditional.
  Variables (proto : acell F64) (grow : Z -> Z -> coord -> coord -> Z * Z * coord) (impact : acell F64 -> F64) (bound : nat).
  Variables (shift nan : F64) (dcos dsin dacos : F64 -> F64) (mpi : F64) (datan2 : F64 -> F64 -> F64) (k : adder_config F64) (margin : nat).
  Hypothesis (Fs : F_fin (ac_scale k) = true) (Hs : (0 < F2R64 (ac_scale k) <= bpow radix2 900)%R).
  Variables (kind : map_kind) (w h B : Z).
  Hypothesis Hsize : size_ok kind w h B.
  Notation upd := (amap_update proto grow impact bound).
  Notation adder := (whole_append proto grow impact bound shift nan dcos dsin dacos mpi datan2 k).
  Notation insert := (insertable shift nan dcos dsin dacos mpi datan2 k margin (area kind w h B)).
  Notation eobs := (entry_obs shift nan dcos dsin dacos mpi datan2 k margin).
  Context {SM : Type}.
  Variables (sm_reset : SM -> SM) (sm_process : SM -> whole_scan F64 -> pose F64 -> amap F64 -> outcome (F64 * pose F64 * SM)) (ql qr : F64).
  Notation run := (ss_run sm_reset sm_process adder ql qr (dofZ (Z.of_nat margin))).
  Notation goes := (goes_on sm_reset sm_process insert).
  Variable m0 : amap F64.

  Lemma run_updates_of : forall hist o wd l0 o' w' notes, run_updates upd l0 m0 = Ok (ss_map wd) -> run o wd hist = Ok (o', w', notes) ->
    (forall h1 s h2 o1 w1 n1, hist = h1 ++ EScan s :: h2 -> run o wd h1 = Ok (o1, w1, n1) -> goes w1 s) ->
    exists ds l, ss_log w' = ss_log wd ++ ds /\ length ds = length (all_scans hist) /\
      run_updates upd (l0 ++ l) m0 = Ok (ss_map w') /\
      (forall c, obs_at c l = flat_map (fun e => eobs e c) (mapped ql qr (ss_pose wd) (all_scans hist) ds)) /\
      ss_pose w' = last_pose (ss_pose wd) (mapped ql qr (ss_pose wd) (all_scans hist) ds).
  Proof using Fs Hs Hsize.
    unfold ss_run. induction hist as [|ev hist IH]; intros o wd l0 o' w' notes E0 ER HG.
    - cbn [world_run] in ER. apply (f_equal (fun r => match r with Ok x => snd (fst x) | _ => wd end)) in ER. cbn in ER. subst w'.
      exists [], []. cbn [all_scans flat_map mapped map last]. rewrite !app_nil_r. do 3 (split; [auto|]). split; reflexivity.
    - destruct ev as [id|id|id|s].
      1-3: cbn [world_run all_scans flat_map app] in *; eapply IH; [exact E0|exact ER|];
        intros h1 s' h2 o1 w1 n1 Eh Er; eapply (HG (_ :: h1)); [rewrite Eh; reflexivity|cbn [world_run]; exact Er].
      destruct (HG [] s hist o wd [] eq_refl eq_refl) as (score & d & sm & Em & Hi).
      set (p1 := pose_add (pose_add (ss_pose wd) (ts_delta s)) d) in *. set (q := if delta_nonzero d then ql else qr).
      destruct (insert_spec proto grow impact bound shift nan dcos dsin dacos mpi datan2 k margin Fs Hs kind w h B Hsize p1 (ts_scan s) q Hi) as (l1 & Ha & A1 & O1).
      cbn [world_run] in ER. apply bind_Ok_inv in ER as ([w1 n1] & EH & ER). apply bind_Ok_inv in ER as ([[o3 w3] n3] & ER & X).
      assert (X1 : w3 = w' /\ o3 = o') by (split; congruence). destruct X1 as [-> ->]. clear X.
      assert (EH' := EH). unfold handle_sensor_data in EH. cbn [bind] in EH. apply bind_Ok_inv in EH as (w2 & ES & EH).
      unfold ss_observe in ES. cbn [ss_update ss_pose ss_map ss_sm ss_log] in ES. rewrite Em in ES. cbn [bind ss_update ss_pose ss_map ss_sm ss_log] in ES. fold p1 q in ES.
      rewrite Ha in ES. apply bind_Ok_inv in ES as (m1 & E1' & ES). cbn [bind] in EH.
      assert (W : w2 = mkSS p1 m1 sm (ss_log wd ++ [d])) by congruence. assert (W' : w1 = w2) by congruence. subst w1 w2. clear ES EH.
      assert (E1 : run_updates upd (l0 ++ l1) m0 = Ok m1) by (rewrite run_updates_app, E0; exact E1').
      destruct (IH o (mkSS p1 m1 sm (ss_log wd ++ [d])) (l0 ++ l1) o' w' n3 E1 ER) as (ds & l & El & Ed & Eu & Ol & Ep).
      { intros h1 s' h2 o1 w2 n2 Eh Er. eapply (HG (EScan s :: h1)); [rewrite Eh; reflexivity|]. cbn [world_run]. rewrite EH'. cbn [bind]. rewrite Er. cbn [bind]. reflexivity. }
      exists (d :: ds), (l1 ++ l).
      split; [rewrite El; cbn [ss_log]; rewrite <- app_assoc; reflexivity|].
      split; [cbn [all_scans flat_map app length]; f_equal; exact Ed|]. split; [rewrite app_assoc; exact Eu|].
      cbn [all_scans flat_map app mapped]. fold p1 q. split.
      + intros c. cbn [flat_map]. rewrite obs_at_app, O1, Ol. reflexivity.
      + unfold last_pose in *. rewrite Ep. cbn [ss_pose map en_pose]. fold (all_scans hist).
        set (t := map en_pose _). destruct t as [|y t]; [reflexivity|]. change (last (p1 :: y :: t) (ss_pose wd)) with (last (y :: t) (ss_pose wd)). clear. revert y. induction t as [|z t IH]; intros y; [reflexivity|]. cbn [last]. apply IH.
  Qed.
End Conditional.
