(** C67-C70, C72: the ROS nodes and the offline runner. *)
From Coq Require Import Ascii String ZArith List Bool Lia Reals Lra.
From Verif.Base Require Import Outcome Num.
From Verif.Model Require Import MathUtils Geometry Sensor Properties Render Config RosNode BagRunner.
From Verif.Spec Require Import PropertiesSpec RosSpec.
From Verif.Proofs Require Import PropertiesProofs RenderProofs RosProofs.
Import ListNotations.
Local Open Scope R_scope.

(** *** C67 *)
(** the groups of transforms of the two kinds of nodes *)
Definition group_1h {M} (m : M) (t : transform R) (p : pose R) (g : list (sent R)) : Prop :=
  exists c, g = [SentCorrection c] /\ corrects t p c.
Definition group_gmapping {M} (stamp : M -> Z) (m : M) (t : transform R) (p : pose R) (g : list (sent R)) : Prop :=
  exists c x, g = [SentCorrection c; SentPose (stamp m) x] /\ corrects t p c /\ is_pose p x.

Section Nodes.
  Context {M S : Type}.
  Variables (stamp : M -> Z) (slam : S -> M -> transform R -> outcome (S * list (pose R))).
  (** a node started in any state: it handles the messages exactly if its SLAM does, and then sends for every scan and every
      pose announced for it the correction that puts the robot of the odometry at the pose *)
  Theorem C67_correction : forall ms n, (forall m t, In (m, Some t) ms -> orthogonal (tf_basis t)) ->
    (forall s' pss, announced slam (n_slam n) ms s' pss ->
      exists n' outs, spin cos sin stamp slam node_1h_poses node_1h_topic n ms = Ok (n', outs) /\ n_slam n' = s' /\ sent_for group_1h ms pss outs) /\
    (forall n' outs, spin cos sin stamp slam node_1h_poses node_1h_topic n ms = Ok (n', outs) ->
      exists pss, announced slam (n_slam n) ms (n_slam n') pss).
  Proof.
    apply spin_general; [|exact (dispatch_slam _ _ _ _ _ _ (one_scans _ (proj2 topics_ok)))]. intros n m t w ps E O. cbn [node_1h_topic dispatch handle_msg bind n_slam]. rewrite E. cbn [bind n_corr n_time].
    set (n1 := mkNode (correction_msg (n_corr n) t) (n_time n) w).
    destruct (notify_1h t O ps n1 (flat_msg _ _)) as (n' & gs & En & Hg & Hs). rewrite En. cbn [bind app]. rewrite app_nil_r. exists n', gs. auto.
  Qed.
  (** the GMapping node also sends the pose itself, stamped with the time of the scan it was announced for *)
  Theorem C67_stamped_pose : forall ms n, (forall m t, In (m, Some t) ms -> orthogonal (tf_basis t)) ->
    (forall s' pss, announced slam (n_slam n) ms s' pss ->
      exists n' outs, spin cos sin stamp slam node_gmapping_poses node_gmapping_topic n ms = Ok (n', outs) /\ n_slam n' = s' /\ sent_for (group_gmapping stamp) ms pss outs) /\
    (forall n' outs, spin cos sin stamp slam node_gmapping_poses node_gmapping_topic n ms = Ok (n', outs) ->
      exists pss, announced slam (n_slam n) ms (n_slam n') pss).
  Proof.
    apply spin_general; [|exact (dispatch_slam _ _ _ _ _ _ (one_scans _ (proj1 topics_ok)))]. intros n m t w ps E O. cbn [node_gmapping_topic dispatch handle_msg bind n_slam]. rewrite E. cbn [bind n_corr n_time].
    set (n1 := mkNode (correction_msg (n_corr n) t) (stamp m) w).
    destruct (notify_gmapping t O (stamp m) ps n1 (flat_msg _ _) eq_refl) as (n' & gs & En & Hg & Hs). rewrite En. cbn [bind app]. rewrite app_nil_r. exists n', gs. auto.
  Qed.
End Nodes.
Print Assumptions C67_correction.
Print Assumptions C67_stamped_pose.
(** a transform turned by an angle and shifted is such a transform, and a SLAM that announces a pose for each scan *)
Example C67_case : orthogonal (tf_basis (mkTf (yaw_basis cos sin 1) (mkV3 1 2 3))) /\
  exists pss, announced (fun (s : nat) (m : nat) (t : transform R) => Ok (Datatypes.S s, [mkPose (INR s) 0 1])) 0%nat [(1%nat, Some (mkTf (yaw_basis cos sin 1) (mkV3 1 2 3))); (2%nat, None)] 1%nat pss.
Proof.
  split.
  - cbn [tf_basis]. rewrite yaw_basis_R. assert (T := sin2_cos2 1). unfold Rsqr in T. unfold orthogonal. mats. repeat split; mats; try ring; lra.
  - exists [[mkPose (INR 0) 0 1]; []]. eapply ann_scan; [reflexivity|]. apply ann_skip, ann_nil.
Qed.

(** *** C70 *)
Section Topic.
  Context {D : Type} {ops : DOps D} {M S : Type}.
  Variables (dcos dsin : D -> D) (stamp : M -> Z) (slam : S -> M -> transform D -> outcome (S * list (pose D))) (poses : list sink).
  (** whatever else listens to the topic: the SLAM handles each scan whose transform is known once, in order, and no other *)
  Theorem C70_each_scan_once : forall subs ms n, one_scan_observer subs ->
    (forall n' outs, spin dcos dsin stamp slam poses subs n ms = Ok (n', outs) -> handles slam (n_slam n) (known ms) (n_slam n')) /\
    (forall s', handles slam (n_slam n) (known ms) s' -> exists n' outs, spin dcos dsin stamp slam poses subs n ms = Ok (n', outs) /\ n_slam n' = s').
  Proof. intros subs ms n H. apply spin_handles, one_scans, H. Qed.
  (** an observer that no longer exists is as one that never subscribed *)
  Theorem C70_expired : forall subs ms n, spin dcos dsin stamp slam poses subs n ms = spin dcos dsin stamp slam poses (filter snd subs) n ms.
  Proof.
    intros subs. assert (H : forall n m t, dispatch dcos dsin stamp slam poses subs n m t = dispatch dcos dsin stamp slam poses (filter snd subs) n m t).
    { induction subs as [|[s []] subs IH]; intros n m t; [reflexivity| |].
      - cbn [filter snd dispatch]. destruct (handle_msg _ _ _ _ _ s n m t) as [[n1 o1]| | |]; try reflexivity. cbn [bind]. rewrite IH. reflexivity.
      - cbn [filter snd dispatch bind]. rewrite IH. destruct (dispatch _ _ _ _ _ (filter snd subs) n m t) as [[n1 o1]| | |]; reflexivity. }
    induction ms as [|[m [t|]] ms IH]; intros n; [reflexivity| |]; cbn [spin transformed_msg_cb].
    - rewrite H. destruct (dispatch _ _ _ _ _ _ n m t) as [[n1 o1]| | |]; try reflexivity. cbn [bind]. rewrite IH. reflexivity.
    - cbn [bind]. rewrite IH. reflexivity.
  Qed.
End Topic.
Print Assumptions C70_each_scan_once.
Print Assumptions C70_expired.
Example C70_case : one_scan_observer node_gmapping_topic /\ one_scan_observer node_1h_topic.
Proof. exact topics_ok. Qed.

(** *** C68 *)
(** the time of a line of the trajectory file: right only if the nanoseconds have nine digits (or are none) *)
Theorem C68_stamp_partial : forall sec nsec, (0 <= sec)%Z -> (0 <= nsec < 10 ^ 9)%Z -> exists v, reads_as (tum_stamp sec nsec) v /\
  (v = IZR sec + IZR nsec / 10 ^ 9 <-> (nsec = 0 \/ 10 ^ 8 <= nsec)%Z).
Proof.
  intros sec nsec Hs Hn. exists (IZR sec + IZR nsec / 10 ^ length (to_string nsec)). split; [apply stamp_reads; lia|].
  destruct (Z.eq_dec nsec 0) as [->|N]; [split; [auto|intros _; unfold Rdiv; ring]|].
  destruct (to_string_len nsec ltac:(lia)) as (k & El & Hk). rewrite El.
  assert (P : 0 < IZR nsec) by (apply IZR_lt; lia).
  assert (K : (k <= 8)%nat) by (destruct (Nat.le_gt_cases k 8) as [L|L]; [exact L|exfalso; assert (10 ^ 9 <= 10 ^ Z.of_nat k)%Z by (apply Z.pow_le_mono_r; lia); lia]).
  split.
  - intros E. right. assert (E' : 10 ^ Datatypes.S k = 10 ^ 9).
    { assert (Q : IZR nsec / 10 ^ Datatypes.S k = IZR nsec / 10 ^ 9) by lra. assert (0 < 10 ^ Datatypes.S k) by (apply pow_lt; lra). assert (0 < 10 ^ 9) by (apply pow_lt; lra).
      apply Rmult_eq_reg_l with (IZR nsec / 10 ^ Datatypes.S k / 10 ^ 9); [|apply Rgt_not_eq; repeat apply Rdiv_lt_0_compat; assumption].
      replace (IZR nsec / 10 ^ Datatypes.S k / 10 ^ 9 * 10 ^ Datatypes.S k) with (IZR nsec / 10 ^ 9) by (field; lra). rewrite Q. field. }
    assert (k = 8%nat).
    { destruct (Nat.lt_trichotomy k 8) as [L|[L|L]]; [exfalso|exact L|lia]. assert (10 ^ Datatypes.S k < 10 ^ 9) by (apply Rlt_pow; [lra|lia]). lra. }
    subst k. exact (proj1 Hk).
  - intros [C|C]; [contradiction|]. assert (k = 8%nat).
    { destruct (Nat.lt_trichotomy k 8) as [L|[L|L]]; [exfalso|exact L|lia]. assert (10 ^ Z.of_nat (Datatypes.S k) <= 10 ^ 8)%Z by (apply Z.pow_le_mono_r; lia). lia. }
    subst k. reflexivity.
Qed.
Print Assumptions C68_stamp_partial.
(** five nanoseconds after a second are written as half a second, later than the tenth of a second *)
Theorem C68_stamp_refuted :
  (exists v, reads_as (tum_stamp 1 5) v /\ v <> 1 + 5 / 10 ^ 9) /\
  (exists v w, reads_as (tum_stamp 1 5) v /\ reads_as (tum_stamp 1 100000000) w /\ w < v).
Proof.
  assert (A : reads_as (tum_stamp 1 5) (1 + 5 / 10)).
  { exists (lit "1"), (lit "5"), 1%Z, 5%Z. split; [reflexivity|]. split; [apply (dec_one "1"%char 1); split; [lia|reflexivity]|]. split; [apply (dec_one "5"%char 5); split; [lia|reflexivity]|]. cbn. lra. }
  split; [exists (1 + 5 / 10); split; [exact A|lra]|]. exists (1 + 5 / 10), (1 + 100000000 / 10 ^ 9). split; [exact A|]. split; [|lra].
  destruct (to_string_len 100000000 ltac:(lia)) as (k & El & Hk). assert (k = 8%nat).
  { destruct (Nat.lt_trichotomy k 8) as [L|[L|L]]; [exfalso|exact L|exfalso].
    - assert (10 ^ Z.of_nat (Datatypes.S k) <= 10 ^ 8)%Z by (apply Z.pow_le_mono_r; lia). lia.
    - assert (10 ^ 9 <= 10 ^ Z.of_nat k)%Z by (apply Z.pow_le_mono_r; lia). lia. }
  subst k. assert (H := stamp_reads 1 100000000 ltac:(lia) ltac:(lia)). rewrite El in H. exact H.
Qed.
Print Assumptions C68_stamp_refuted.
(** the value read is determined by the text, so no other reading is right *)
Theorem C68_reading_unique : forall s v w, reads_as s v -> reads_as s w -> v = w.
Proof. exact reads_fun. Qed.
Print Assumptions C68_reading_unique.
(** the file holds one line for each logged pose, in order *)
Theorem C68_lines : forall P (show : P -> str) log, (forall p, no_nl (show p)) -> Forall (fun e => (0 <= fst (fst e) /\ 0 <= snd (fst e))%Z) log ->
  lines_of (tum_file show log) (map (fun e => tum_stamp (fst (fst e)) (snd (fst e)) ++ show (snd e)) log).
Proof.
  intros P show log Hs F. replace (map _ log) with (getlines (tum_file show log)); [apply getlines_lines_of|].
  induction F as [|[[sec nsec] p] log [H1 H2] F IH]; [reflexivity|]. cbn [fst snd] in *. cbn [tum_file map fst snd].
  unfold tum_line. rewrite <- !app_assoc. change ([nl] ++ tum_file show log) with (nl :: tum_file show log). rewrite app_assoc. rewrite getlines_nl; [rewrite IH; reflexivity|].
  assert (N : forall z, (0 <= z)%Z -> no_nl (to_string z)).
  { intros z Hz I. destruct (decimal_digits _ _ (to_string_decimal z Hz) _ I) as [d [Hd E]]. change (10 = 48 + d)%Z in E. lia. }
  unfold tum_stamp. intros I. repeat (apply in_app_or in I; destruct I as [I|I]); [exact (N _ H1 I)|destruct I as [I|[]]; discriminate I|exact (N _ H2 I)|exact (Hs _ I)].
Qed.
Print Assumptions C68_lines.
Example C68_case : (0 <= 5)%Z /\ (0 <= 123 < 10 ^ 9)%Z /\ no_nl (lit " 1 2 0 0 0 0 1").
Proof. split; [lia|]. split; [lia|]. intros I. cbn in I. intuition discriminate. Qed.

(** *** C69 *)
Section Launch.
  Context {D : Type} {ops : DOps D}.
  Variables (round_int : D -> Z) (stod : str -> outcome D).
  Definition set_all_l (h : list (str * str)) (p : pserver D) : pserver D := fold_left (fun p kv => l_set p (fst kv) (snd kv)) h p.
  (** after any history of settings the last value set is read, with the meaning a properties file gives it (C43) *)
  Theorem C69_set_then_read : forall p0 h id v, last_set h id (Some v) -> v <> lit "<unset>" -> let p := set_all_l h p0 in
    forall file : props, file id = Some v ->
    (forall dflt, l_str p id dflt = v) /\
    (forall dflt, l_int round_int p id dflt = get_int file id dflt) /\
    (forall dflt, l_dbl stod p id dflt = stod v) /\
    (forall dflt, l_bool p id dflt = get_bool file id dflt) /\
    (forall dflt z, l_uint round_int p id dflt = Ok z -> get_uint file id dflt = Ok z).
  Proof.
    intros p0 h id v L U p file F. assert (E : p id = Some (PStr v)) by (apply set_all_last; exact L).
    assert (S : forall d, l_str p id d = v) by (intros d; unfold l_str, param_str; rewrite E; reflexivity).
    assert (N : str_eqb v (lit "<unset>") = false) by (apply str_eqb_neq; exact U).
    split; [exact S|]. unfold l_int, l_dbl, l_bool, l_uint, get_int, get_bool, get_uint, unset. rewrite S, N, F. repeat (split; [reflexivity|]). 
    intros dflt z. unfold l_int, unset. rewrite S, N. apply stoi_stoul.
  Qed.
  (** what was never set has the default *)
  Theorem C69_unset_partial : forall p0 h id, p0 id = None -> last_set h id None -> let p := set_all_l h p0 in
    (forall dflt, l_str p id dflt = dflt) /\ (forall dflt, l_int round_int p id dflt = Ok dflt) /\ (forall dflt, l_dbl stod p id dflt = Ok dflt) /\
    (forall dflt, l_bool p id dflt = dflt) /\
    (forall dflt, (0 <= dflt < 2 ^ 32)%Z -> l_uint round_int p id dflt = if (dflt <? 2 ^ 31)%Z then Ok dflt else Abort).
  Proof.
    intros p0 h id E0 L p. assert (E : p id = None) by (unfold p, set_all_l; rewrite (set_all_other h id p0 L); exact E0).
    unfold l_str, l_int, l_dbl, l_bool, l_uint, l_int, l_str, param_str, param_int, param_dbl, param_bool, unset. rewrite E. replace (str_eqb (lit "<unset>") (lit "<unset>")) with true by reflexivity.
    repeat (split; [reflexivity|]). intros dflt H. unfold uint_to_int. cbn [bind]. destruct (Z.ltb_spec dflt (2 ^ 31)) as [C|C].
    - destruct (Z.leb_spec 0 dflt); [reflexivity|lia].
    - destruct (Z.leb_spec 0 (dflt - 2 ^ 32)); [lia|reflexivity].
  Qed.
  (** the default of an unsigned property that is no int ends the program *)
  Theorem C69_huge_default_refuted : l_uint round_int (fun _ => None) (lit "n") 4294967295 = Abort.
  Proof. destruct (C69_unset_partial (fun _ => None) [] (lit "n") eq_refl) as (_ & _ & _ & _ & H); [intros w []|]. apply (H 4294967295%Z). lia. Qed.
  (** typed parameters: read as what they are; 0 and 1 are no booleans *)
  Theorem C69_typed : forall (p : pserver D) id,
    (forall z, p id = Some (PInt z) -> (forall d, l_int round_int p id d = Ok z) /\ (forall d, l_dbl stod p id d = Ok (dofZ z)) /\ (forall d, l_bool p id d = d)) /\
    (forall x, p id = Some (PDbl x) -> forall d, l_dbl stod p id d = Ok x) /\
    (forall b, p id = Some (PBool b) -> forall d, l_bool p id d = b).
  Proof.
    intros p id. unfold l_int, l_dbl, l_bool, l_str, param_str, param_int, param_dbl, param_bool.
    split; [intros z E|split; [intros x E d|intros b E d]]; rewrite E; replace (str_eqb unset unset) with true by reflexivity; auto.
  Qed.
  (** the properties of the configuration file win over the launch parameters; the others stay *)
  Theorem C69_config_wins : forall (p : pserver D) file names, (forall id, In id names <-> file id <> None) -> forall id,
    match file id with Some v => forall d, l_str (use_config p file names) id d = v | None => use_config p file names id = p id end.
  Proof.
    intros p file names H id. destruct (file id) as [v|] eqn:E.
    - assert (I : In id names) by (apply H; congruence). intros d. unfold l_str, param_str. rewrite (config_in file names id v E p I). reflexivity.
    - apply config_out. intros I. apply H in I. congruence.
  Qed.
End Launch.
Print Assumptions C69_set_then_read.
Print Assumptions C69_unset_partial.
Print Assumptions C69_huge_default_refuted.
Print Assumptions C69_typed.
Print Assumptions C69_config_wins.
Example C69_case : last_set [(lit "a", lit "1"); (lit "b", lit "2"); (lit "a", lit "3")] (lit "a") (Some (lit "3")).
Proof. exists [(lit "a", lit "1"); (lit "b", lit "2")], []. split; [reflexivity|]. intros w []. Qed.

(** *** C58: the SLAM that is run *)
Theorem C58_slam_kind : forall a, 
  (main_slam a = Some OneHypothesis <-> pa_valid a = true /\ (pa_type a = lit "viny" \/ pa_type a = lit "tiny")) /\
  (main_slam a = Some GmappingSlam <-> pa_valid a = true /\ pa_type a = lit "gmapping").
Proof.
  intros a. unfold main_slam. destruct (pa_valid a); cbn [negb]; [|split; split; [discriminate|intros [H _]; discriminate H|discriminate|intros [H _]; discriminate H]].
  destruct (str_eqb (pa_type a) (lit "viny")) eqn:E1; [apply str_eqb_eq in E1|apply str_eqb_neq in E1]; cbn [orb].
  { split; split; try discriminate; auto. intros [_ H]. rewrite E1 in H. discriminate H. }
  destruct (str_eqb (pa_type a) (lit "tiny")) eqn:E2; [apply str_eqb_eq in E2|apply str_eqb_neq in E2].
  { split; split; try discriminate; auto. intros [_ H]. rewrite E2 in H. discriminate H. }
  destruct (str_eqb (pa_type a) (lit "gmapping")) eqn:E3; [apply str_eqb_eq in E3|apply str_eqb_neq in E3].
  { split; split; try discriminate; auto. intros [_ [H|H]]; contradiction. }
  split; split; try discriminate; [intros [_ [H|H]]; contradiction|intros [_ H]; contradiction].
Qed.
Print Assumptions C58_slam_kind.
(** *** C72 *)
Section Offline.
  Context {S M T P Im : Type}.
  Variables (handle : S -> M -> T -> outcome S) (pose_of : S -> P) (image_of : S -> Im).
  (** the states of the SLAM after each scan *)
  Inductive states : S -> list (M * T * (Z * Z)) -> list S -> Prop :=
  | st_nil s : states s [] []
  | st_scan s m t time bag s1 l : handle s m t = Ok s1 -> states s1 bag l -> states s ((m, t, time) :: bag) (s1 :: l).
  (** every scan of the bag is handled once, in order; the trajectory holds the time of each scan and the pose after it; the
      map is drawn from the final state *)
  Theorem C72_offline_run : forall p a s bag, get_bool p (lit "in/lscan2D/ros/topic/enabled") false = true -> get_bool p (lit "in/odometry/ros/tf/enabled") false = true ->
    (forall l, states s bag l ->
      run_slam handle pose_of image_of p a s bag =
      Ok (last l s, match pa_traj a with None => [] | Some _ => combine (map snd bag) (map pose_of l) end, match pa_map a with [] => None | _ => Some (image_of (last l s)) end)) /\
    (forall r, run_slam handle pose_of image_of p a s bag = Ok r -> exists l, states s bag l).
  Proof.
    intros p a s bag E1 E2. unfold run_slam. rewrite E1, E2. cbn [assert_ bind].
    assert (H : forall bag s log, (forall l, states s bag l -> run_scans handle pose_of a s bag log = Ok (last l s, match pa_traj a with None => log | Some _ => log ++ combine (map snd bag) (map pose_of l) end)) /\
      (forall r, run_scans handle pose_of a s bag log = Ok r -> exists l, states s bag l)).
    { clear. induction bag as [|[[m t] time] bag IH]; intros s log; cbn [run_scans].
      - split; [|intros r _; exists []; constructor]. intros l H. inversion H; subst. cbn. destruct (pa_traj a); [rewrite app_nil_r|]; reflexivity.
      - split.
        + intros l H. inversion H as [|? ? ? ? ? s1 l' Es Hl]; subst. rewrite Es. cbn [bind]. rewrite (proj1 (IH s1 _) _ Hl). f_equal. f_equal.
          * clear. destruct l' as [|x l']; [reflexivity|]. cbn [last]. revert x. induction l' as [|y l' IHl]; intros x; [reflexivity|]. exact (IHl y).
          * destruct (pa_traj a); [rewrite <- app_assoc|]; reflexivity.
        + intros r E. destruct (handle s m t) as [s1| | |] eqn:Es; try discriminate E. cbn [bind] in E. destruct (proj2 (IH s1 _) _ E) as [l Hl]. exists (s1 :: l). econstructor; eassumption. }
    destruct (H bag s []) as [A B]. split.
    - intros l Hl. rewrite (A l Hl). cbn [bind]. destruct (pa_traj a); reflexivity.
    - intros r E. destruct (run_scans handle pose_of a s bag []) as [[s' log]| | |] eqn:Er; try discriminate E. apply (B _ eq_refl).
  Qed.
End Offline.
Print Assumptions C72_offline_run.
Example C72_case : exists l, states (fun (s m t : nat) => Ok (s + m)%nat) 0%nat [(1, 0, (5, 6)%Z); (2, 0, (7, 8)%Z)]%nat l /\ l = [1; 3]%nat.
Proof. exists [1; 3]%nat. split; [|reflexivity]. eapply st_scan; [reflexivity|]. eapply st_scan; [reflexivity|]. apply st_nil. Qed.
