(** C97: the pose graph is the chain of the poses at which the odometry has reached the limit. *)
From Coq Require Import Reals ZArith List Bool Lia Lra.
From Verif.Base Require Import Outcome Num.
From Verif.Model Require Import MathUtils Geometry Sensor World PoseGraph.
From Verif.Spec Require Import PoseGraphSpec.
From Verif.Proofs Require Import AreaRange.
Import ListNotations.

Section Gen.
  Context {D S M SM : Type} {ops : DOps D}.
  Implicit Types (g : pgraph D S) (ks : list (tr_scan D S * pose D)).
  Lemma upd_node_nth (l : list (gnode D S)) f : forall i j, nth_error (upd_node l i f) j = if Nat.eqb i j then option_map f (nth_error l j) else nth_error l j.
  Proof. induction l as [|n l IH]; intros [|i] [|j]; cbn [upd_node nth_error option_map Nat.eqb]; try reflexivity; [destruct (Nat.eqb i j); reflexivity|apply IH]. Qed.
  Lemma upd_node_length (l : list (gnode D S)) f : forall i, length (upd_node l i f) = length l.
  Proof. induction l as [|n l IH]; intros [|i]; cbn [upd_node length]; congruence. Qed.

  Definition current_ok g ks : Prop := pg_current g = match ks with [] => None | _ => Some (pred (length ks)) end.
  Lemma add_node_chain g ks s p : chain_graph g ks -> current_ok g ks ->
    exists g', pg_add_node g s p = Ok g' /\ chain_graph g' (ks ++ [(s, p)]) /\ current_ok g' (ks ++ [(s, p)]).
  Proof.
    intros (LN & LE & HN & HE) HC. unfold pg_add_node. rewrite HC. destruct ks as [|k ks0] eqn:Ek.
    - eexists. split; [reflexivity|]. cbn [length] in LN, LE. destruct (pg_nodes g) as [|x y] eqn:Gn; [|discriminate]. destruct (pg_edges g) eqn:Ge; [|discriminate].
      split; [|reflexivity]. unfold chain_graph. cbn [pg_nodes pg_edges app length pred]. split; [reflexivity|]. split; [reflexivity|]. split.
      + intros i s' p' Hi. destruct i as [|i]; [|destruct i; discriminate]. cbn in Hi. injection Hi as <- <-. eexists. split; [reflexivity|]. auto.
      + intros i s' p' s2 p2 _ H. destruct i; discriminate.
    - rewrite <- Ek in *. assert (NZ : (length ks <> 0)%nat) by (rewrite Ek; discriminate). clear Ek.
      set (n := length ks) in *. cbn [pg_nodes pg_edges]. unfold pg_add_edge. cbn [pg_nodes pg_edges pg_current].
      rewrite LN. rewrite nth_error_app2, LN, Nat.sub_diag by (rewrite LN; lia). cbn [nth_error].
      destruct (nth_error ks (pred n)) as [[sl pl]|] eqn:El; [|apply nth_error_None in El; fold n in El; lia].
      destruct (HN _ _ _ El) as (nl & Enl & Esc & Epo & Eed). rewrite nth_error_app1 by (rewrite LN; lia). rewrite Enl. cbn [bind nd_pose]. eexists. split; [reflexivity|].
      split; [|unfold current_ok; cbn [pg_current]; rewrite app_length; cbn [length]; fold n; destruct (ks ++ [(s, p)]) eqn:X; [destruct ks; discriminate|]; f_equal; lia].
      unfold chain_graph. cbn [pg_nodes pg_edges]. rewrite !app_length, !upd_node_length, app_length, LE, LN. cbn [length]. fold n.
      split; [reflexivity|]. split; [lia|]. split.
      + intros i s' p' Hi. rewrite !upd_node_nth. destruct (Nat.lt_ge_cases i n) as [Hlt|Hge].
        * rewrite nth_error_app1 in Hi by exact Hlt. destruct (HN _ _ _ Hi) as (x & Ex & A & B & C). rewrite nth_error_app1 by (rewrite LN; exact Hlt). rewrite Ex.
          destruct (Nat.eqb_spec n i) as [|_]; [lia|]. destruct (Nat.eqb_spec (pred n) i) as [Hi2|Hi2].
          -- eexists. split; [reflexivity|]. cbn [push_edge nd_scan nd_pose nd_edges]. split; [exact A|]. split; [exact B|]. rewrite C.
             destruct (Nat.eqb_spec (Datatypes.S i) n) as [_|H]; [|lia]. destruct (Nat.eqb_spec (Datatypes.S i) (n + 1)) as [H|_]; [lia|]. rewrite app_nil_r. subst i. reflexivity.
          -- eexists. split; [reflexivity|]. split; [exact A|]. split; [exact B|]. rewrite C.
             destruct (Nat.eqb_spec (Datatypes.S i) n) as [H|_]; [lia|]. destruct (Nat.eqb_spec (Datatypes.S i) (n + 1)) as [H|_]; [lia|]. reflexivity.
        * rewrite nth_error_app2 in Hi by exact Hge. fold n in Hi. destruct (i - n)%nat as [|j] eqn:Hj; [|destruct j; discriminate]. assert (Hin : i = n) by lia. clear Hj Hge. subst i. cbn in Hi. injection Hi as <- <-.
          rewrite nth_error_app2 by (rewrite LN; lia). rewrite LN, Nat.sub_diag, Nat.eqb_refl. cbn [nth_error option_map].
          destruct (Nat.eqb_spec (pred n) n) as [H|_]; [lia|]. eexists. split; [reflexivity|]. cbn [push_edge nd_scan nd_pose nd_edges app]. do 2 (split; [reflexivity|]).
          destruct (Nat.eqb_spec n 0) as [H|_]; [lia|]. destruct (Nat.eqb_spec (Datatypes.S n) (n + 1)) as [_|H]; [|lia]. reflexivity.
      + intros i s1 p1 s2 p2 H1 H2. assert (HL : (Datatypes.S i < n + 1)%nat). { assert (nth_error (ks ++ [(s, p)]) (Datatypes.S i) <> None) by congruence. apply nth_error_Some in H. rewrite app_length in H. cbn [length] in H. fold n in H. lia. }
        rewrite nth_error_app1 in H1 by (fold n; lia). destruct (Nat.eq_dec (Datatypes.S i) n) as [Hn|Hn].
        * assert (Hi : i = pred n) by lia. subst i. rewrite El in H1. injection H1 as <- <-. rewrite nth_error_app2 in H2 by (fold n; lia). fold n in H2. rewrite Hn, Nat.sub_diag in H2. cbn in H2. injection H2 as <- <-.
          rewrite nth_error_app2 by (rewrite LE; lia). rewrite LE, Nat.sub_diag. cbn [nth_error]. rewrite Epo, Hn. reflexivity.
        * rewrite nth_error_app1 in H2 by (fold n; lia). rewrite nth_error_app1 by (rewrite LE; lia). eapply HE; eassumption.
  Qed.

  Lemma nco_reached limit acc d : (exists a, nco_required limit acc d = (true, a) /\ a = delta_zero /\ reached limit (pose_add acc d)) \/
    (nco_required limit acc d = (false, pose_add acc d) /\ ~ reached limit (pose_add acc d)).
  Proof.
    unfold nco_required, reached, is_abs_less. destruct (dlt (dabs (px (pose_add acc d))) (dabs (px limit))) eqn:E1; cbn [andb].
    - destruct (dlt (dabs (py (pose_add acc d))) (dabs (py limit))) eqn:E2; cbn [andb].
      + destruct (dlt (dabs (pth (pose_add acc d))) (dabs (pth limit))) eqn:E3; [right|left; eauto 10]. split; [reflexivity|]. intros [H|[H|H]]; discriminate.
      + left; eauto 10.
    - left; eauto 10.
  Qed.

  Variables (limit : pose D) (sm_process : SM -> S -> pose D -> M -> outcome (D * pose D * SM)) (adder : M -> pose D -> S -> D -> D -> outcome M) (m0 : M) (margin : D).
  Notation run := (gw_run limit sm_process adder m0 margin).
  Notation poses := (poses_of sm_process adder m0 margin).
  Lemma run_chain : forall h o w ks o' w' notes, chain_graph (gw_graph w) ks -> current_ok (gw_graph w) ks -> run o w h = Ok (o', w', notes) ->
    exists ps ks', poses (gw_sm w) (gw_last w) (gw_pose w) (history_scans h) ps /\ kept limit (gw_acc w) (history_scans h) ps ks' /\
      chain_graph (gw_graph w') (ks ++ ks') /\ gw_pose w' = last ps (gw_pose w).
  Proof.
    unfold gw_run. induction h as [|e h IH]; intros o w ks o' w' notes HG HC; cbn [world_run].
    - intros X. apply Ok_inj in X. injection X as _ <- _. exists [], []. rewrite app_nil_r. split; [constructor|]. split; [constructor|]. auto.
    - destruct e as [id|id|id|s]; try (apply IH; assumption). unfold handle_sensor_data. cbn [bind].
      destruct (gw_observe limit sm_process adder m0 margin (gw_update w (ts_delta s)) s) as [w1| | |] eqn:E1; try discriminate. cbn [bind].
      destruct (world_run _ _ _ _ o w1 h) as [[[o2 w2] n2]| | |] eqn:E2; try discriminate. cbn [bind]. intros X. apply Ok_inj in X. injection X as _ <- _.
      (* the pose after the scan *)
      assert (K : exists p1 sm1 acc1 g1 ks1, w1 = mkGW p1 (Some s) acc1 g1 sm1 /\
        (forall ps, poses sm1 (Some s) p1 (history_scans h) ps -> poses (gw_sm w) (gw_last w) (gw_pose w) (s :: history_scans h) (p1 :: ps)) /\
        (forall ps k, kept limit acc1 (history_scans h) ps k -> kept limit (gw_acc w) (s :: history_scans h) (p1 :: ps) (ks1 ++ k)) /\
        chain_graph g1 (ks ++ ks1) /\ current_ok g1 (ks ++ ks1)).
      { revert E1. unfold gw_observe. cbn [gw_update gw_last gw_pose gw_acc gw_graph gw_sm].
        assert (B : forall wp sm1, (let '(required, acc) := nco_required limit (gw_acc w) (ts_delta s) in
            if required then g <- pg_add_node (gw_graph w) s wp ;; Ok (mkGW wp (Some s) acc g sm1) else Ok (mkGW wp (Some s) acc (gw_graph w) sm1))%out = Ok w1 ->
            exists acc1 g1 ks1, w1 = mkGW wp (Some s) acc1 g1 sm1 /\
            (forall ps k, kept limit acc1 (history_scans h) ps k -> kept limit (gw_acc w) (s :: history_scans h) (wp :: ps) (ks1 ++ k)) /\ chain_graph g1 (ks ++ ks1) /\ current_ok g1 (ks ++ ks1)).
        { intros wp sm1. destruct (nco_reached limit (gw_acc w) (ts_delta s)) as [(a & -> & -> & HR)|[-> HR]].
          - destruct (add_node_chain _ _ s wp HG HC) as (g' & -> & HG' & HC'). cbn [bind]. intros X. apply Ok_inj in X. exists delta_zero, g', [(s, wp)]. split; [auto|].
            split; [|split; assumption]. intros ps k Hk. cbn [app]. constructor; assumption.
          - intros X. apply Ok_inj in X. eexists _, (gw_graph w), []. split; [symmetry; exact X|]. rewrite app_nil_r. split; [|split; assumption].
            intros ps k Hk. cbn [app]. apply kept_skip; assumption. }
        destruct (gw_last w) as [lst|] eqn:EL.
        - unfold gw_estimate. destruct (adder m0 _ _ _ _) as [m| | |] eqn:EA; try discriminate. cbn [bind].
          destruct (sm_process (gw_sm w) (ts_scan s) delta_zero m) as [[[score d] sm1]| | |] eqn:ES; try discriminate. cbn [bind gw_update gw_pose gw_last gw_acc gw_graph gw_sm].
          intros X. destruct (B _ _ X) as (acc1 & g1 & ks1 & Ew & K1 & K2 & K3). do 5 eexists. split; [exact Ew|]. split; [|auto]. intros ps Hps. eapply po_next; eassumption.
        - cbn [bind gw_update gw_pose gw_last gw_acc gw_graph gw_sm]. intros X. destruct (B _ _ X) as (acc1 & g1 & ks1 & Ew & K1 & K2 & K3). do 5 eexists. split; [exact Ew|]. split; [|auto].
          intros ps Hps. apply po_first. exact Hps. }
      destruct K as (p1 & sm1 & acc1 & g1 & ks1 & Ew & K1 & K2 & K3 & K4). subst w1.
      destruct (IH o (mkGW p1 (Some s) acc1 g1 sm1) (ks ++ ks1) o2 w2 n2 K3 K4 E2) as (ps & k & H1 & H2 & H3 & H4). cbn [gw_sm gw_last gw_pose gw_acc gw_graph] in *.
      exists (p1 :: ps), (ks1 ++ k). cbn [history_scans flat_map app]. split; [apply K1, H1|]. split; [apply K2, H2|]. split; [rewrite app_assoc; exact H3|].
      rewrite H4. destruct ps as [|y ps]; [reflexivity|]. change (last (p1 :: y :: ps) (gw_pose w)) with (last (y :: ps) (gw_pose w)). clear. revert y. induction ps as [|z ps IH]; intros y; [reflexivity|]. cbn [last]. apply IH.
  Qed.
  Lemma run_ends : forall h o w ks ps, chain_graph (gw_graph w) ks -> current_ok (gw_graph w) ks -> poses (gw_sm w) (gw_last w) (gw_pose w) (history_scans h) ps ->
    exists o' w' notes, run o w h = Ok (o', w', notes).
  Proof.
    unfold gw_run. induction h as [|e h IH]; intros o w ks ps HG HC HP; cbn [world_run]; [eauto|].
    destruct e as [id|id|id|s]; try (eapply IH; eassumption). cbn [history_scans flat_map app] in HP. fold (history_scans h) in HP.
    unfold handle_sensor_data. cbn [bind].
    assert (B : forall wp sm1 ps1, poses sm1 (Some s) wp (history_scans h) ps1 -> exists w1, (let '(required, acc) := nco_required limit (gw_acc w) (ts_delta s) in
        if required then g <- pg_add_node (gw_graph w) s wp ;; Ok (mkGW wp (Some s) acc g sm1) else Ok (mkGW wp (Some s) acc (gw_graph w) sm1))%out = Ok w1 /\
        exists o' w' notes, world_run (fun w d => Ok (gw_update w d)) (gw_observe limit sm_process adder m0 margin) (fun w => Ok (gw_pose w)) (fun w => Ok (gw_graph w)) o w1 h = Ok (o', w', notes)).
    { intros wp sm1 ps1 Hp. destruct (nco_reached limit (gw_acc w) (ts_delta s)) as [(a & -> & -> & HR)|[-> HR]].
      - destruct (add_node_chain _ _ s wp HG HC) as (g' & -> & HG' & HC'). cbn [bind]. eexists. split; [reflexivity|]. eapply IH; eassumption.
      - eexists. split; [reflexivity|]. eapply IH; eassumption. }
    assert (K : exists w1, gw_observe limit sm_process adder m0 margin (gw_update w (ts_delta s)) s = Ok w1 /\
      exists o' w' notes, world_run (fun w d => Ok (gw_update w d)) (gw_observe limit sm_process adder m0 margin) (fun w => Ok (gw_pose w)) (fun w => Ok (gw_graph w)) o w1 h = Ok (o', w', notes)).
    { inversion HP as [|? ? ? ? ps1 HP1 E1 E2 E3 E4|sm lst p s0 m score d sm1 ? ps1 HA HM HP1 E1 E2 E3 E4]; subst.
      - destruct (B _ _ _ HP1) as (w1 & E5 & R). exists w1. split; [|exact R]. unfold gw_observe. cbn [gw_update gw_last]. rewrite <- E2.
        cbn [bind gw_update gw_last gw_pose gw_acc gw_graph gw_sm]. exact E5.
      - destruct (B _ _ _ HP1) as (w1 & E5 & R). exists w1. split; [|exact R]. unfold gw_observe. cbn [gw_update gw_last]. rewrite <- E2.
        unfold gw_estimate. rewrite HA. cbn [bind gw_sm gw_update]. rewrite HM. cbn [bind gw_update gw_last gw_pose gw_acc gw_graph gw_sm]. exact E5. }
    destruct K as (w1 & -> & o' & w' & n & R). cbn [bind]. rewrite R. cbn [bind]. eauto.
  Qed.
End Gen.

(** Any arithmetic, scan matcher, scan adder, limit and history, in a new world: if the run ends, its poses are those of odometry
    plus the matcher's answers on the previous scan, and its graph is the chain of the scans at which the odometry since the last
    node reached the limit, at the poses the world had then. *)
Theorem C97_pose_graph_is_a_chain :
  forall (D S M SM : Type) (ops : DOps D) (limit : pose D) (sm_process : SM -> S -> pose D -> M -> outcome (D * pose D * SM))
    (adder : M -> pose D -> S -> D -> D -> outcome M) (m0 : M) (margin : D) o sm h o' w' notes,
  gw_run limit sm_process adder m0 margin o (gw_new sm) h = Ok (o', w', notes) ->
  exists ps ks, poses_of sm_process adder m0 margin sm None delta_zero (history_scans h) ps /\
    kept limit delta_zero (history_scans h) ps ks /\ chain_graph (gw_graph w') ks /\ gw_pose w' = last ps delta_zero.
Proof.
  intros * E. destruct (run_chain limit sm_process adder m0 margin h o (gw_new sm) [] o' w' notes) as (ps & ks & H1 & H2 & H3 & H4); [| |exact E|exists ps, ks; auto].
  - unfold chain_graph, gw_new, pg_new. cbn [gw_graph pg_nodes pg_edges length pred]. do 2 (split; [reflexivity|]). split; [intros i s p H; destruct i; discriminate|intros i s p s' p' H; destruct i; discriminate].
  - reflexivity.
Qed.
Print Assumptions C97_pose_graph_is_a_chain.

(** And nothing but the matcher or the adder can stop the run. *)
Theorem C97_run_ends :
  forall (D S M SM : Type) (ops : DOps D) (limit : pose D) (sm_process : SM -> S -> pose D -> M -> outcome (D * pose D * SM))
    (adder : M -> pose D -> S -> D -> D -> outcome M) (m0 : M) (margin : D) o sm h ps,
  poses_of sm_process adder m0 margin sm None delta_zero (history_scans h) ps ->
  exists o' w' notes, gw_run limit sm_process adder m0 margin o (gw_new sm) h = Ok (o', w', notes).
Proof.
  intros * HP. apply (run_ends limit sm_process adder m0 margin h o (gw_new sm) [] ps); [| |exact HP].
  - unfold chain_graph, gw_new, pg_new. cbn [gw_graph pg_nodes pg_edges length pred]. do 2 (split; [reflexivity|]). split; [intros i s p H; destruct i; discriminate|intros i s p s' p' H; destruct i; discriminate].
  - reflexivity.
Qed.
Print Assumptions C97_run_ends.

(** The measured steps add up (exact arithmetic): along the chain from the first to any later node. *)
Theorem C97_steps_add_up :
  forall (S : Type) (g : pgraph R S) ks n s0 p0 s1 p1, chain_graph g ks -> nth_error ks 0 = Some (s0, p0) -> nth_error ks n = Some (s1, p1) ->
  let total f := fold_right Rplus 0%R (map (fun e => f (ed_delta e)) (firstn n (pg_edges g))) in
  px p1 = (px p0 + total (@px R))%R /\ py p1 = (py p0 + total (@py R))%R /\ pth p1 = (pth p0 + total (@pth R))%R.
Proof.
  intros S g ks n s0 p0 s1 p1 (LN & LE & HN & HE) H0 H1 total. revert s1 p1 H1. unfold total. clear total.
  induction n as [|n IH]; intros s1 p1 H1.
  - rewrite H0 in H1. injection H1 as _ <-. cbn. repeat split; lra.
  - assert (Hl : (Datatypes.S n < length ks)%nat) by (apply nth_error_Some; congruence).
    destruct (nth_error ks n) as [[s p]|] eqn:En; [|apply nth_error_None in En; lia]. destruct (IH s p eq_refl) as (A & B & C).
    assert (Ee := HE n s p s1 p1 En H1).
    assert (F : firstn (Datatypes.S n) (pg_edges g) = firstn n (pg_edges g) ++ [mkEdge (pose_sub p1 p) (Datatypes.S n) n]).
    { clear -Ee. revert Ee. generalize (mkEdge (pose_sub p1 p) (Datatypes.S n) n). generalize (pg_edges g). clear. induction n as [|n IH]; intros l e E; destruct l as [|x l]; try discriminate; cbn in E.
      - injection E as ->. reflexivity.
      - cbn [firstn app]. f_equal. apply (IH l e E). }
    rewrite F, !map_app, !fold_right_app. cbn [map fold_right ed_delta pose_sub px py pth].
    assert (G : forall f l z, fold_right Rplus z (map (fun e : gedge R => f (ed_delta e)) l) = (fold_right Rplus 0%R (map (fun e => f (ed_delta e)) l) + z)%R).
    { clear. intros f l z. induction l as [|x l IH]; cbn [map fold_right]; [lra|]. rewrite IH. lra. }
    rewrite (G (@px R)), (G (@py R)), (G (@pth R)), A, B, C. cbn [dsub ROps]. split; [lra|split; lra].
Qed.
Print Assumptions C97_steps_add_up.

(** A run that meets the hypotheses, in binary64: the limit is 5 in each component, three scans come 3 along x and one after a turn
    of 6; the matcher counts its calls and answers 1 along x. The second and the fourth scan become nodes: at x = 7 and at x = 12. *)
Definition fz (z : Z) : F64 := F_ofZ z.
Definition fpose (x y t : Z) : pose F64 := mkPose (fz x) (fz y) (fz t).
Definition ex_h : list (wevent F64 nat) :=
  [EScan (mkTS (fpose 3 0 0) 1%nat (fz 1)); EScan (mkTS (fpose 3 0 0) 2%nat (fz 1)); ESubPose 7%nat; EScan (mkTS (fpose 3 0 0) 3%nat (fz 1)); EScan (mkTS (fpose 0 0 6) 4%nat (fz 1))].
Definition ex_run := gw_run (fpose 5 5 5) (fun k _ _ _ => Ok (fz 1, fpose 1 0 0, Datatypes.S k)) (fun m _ s _ _ => Ok (m ++ [s])) (@nil nat) (fz 0) wo_new (gw_new 0%nat) ex_h.
Definition peqb (p q : pose F64) : bool := deq (px p) (px q) && deq (py p) (py q) && deq (pth p) (pth q).
Definition ex_ok : bool :=
  match ex_run with
  | Ok (_, w, notes) =>
      peqb (gw_pose w) (fpose 12 0 6) && Nat.eqb (gw_sm w) 3 && Nat.eqb (length notes) 2 &&
      match pg_nodes (gw_graph w), pg_edges (gw_graph w) with
      | [a; b], [e] => Nat.eqb (ts_scan (nd_scan a)) 2 && Nat.eqb (ts_scan (nd_scan b)) 4 && peqb (nd_pose a) (fpose 7 0 0) && peqb (nd_pose b) (fpose 12 0 6) && peqb (ed_delta e) (fpose 5 0 6)
      | _, _ => false
      end
  | _ => false
  end.
Example C97_case : ex_ok = true.
Proof. vm_cast_no_check (eq_refl true). Qed.
