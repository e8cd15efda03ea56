(** C92: the map of a search space. *)
From Coq Require Import ZArith List Bool Lia.
From Verif.Base Require Import Outcome Num OrdLaws.
From Verif.Model Require Import MathUtils Geometry Grid PlainMap Sensor Matchers SearchSpace.
From Verif.Spec Require Import MapSpec MatchSpec SearchSpaceSpec.
From Verif.Proofs Require Import PlainMapProofs.
From Verif.Props Require Import PlainMapProps MatcherProps.
Import ListNotations.
Local Open Scope Z_scope.
Local Open Scope outcome_scope.

Lemma coord_eqb_dec c c' : coord_eqb c c' = if coord_eq_dec c c' then true else false.
Proof.
  unfold coord_eqb, cx, cy. destruct c as [a b], c' as [a' b']. cbn [fst snd].
  destruct (coord_eq_dec (a, b) (a', b')) as [E|N].
  - assert (a = a' /\ b = b') as [-> ->] by (split; congruence). now rewrite !Z.eqb_refl.
  - destruct (Z.eqb_spec a a'), (Z.eqb_spec b b'); try reflexivity. subst. congruence.
Qed.

Lemma on_events_run res evs : forall m ops,
  Forall2 (fun t op => exists c, world_to_cell res (px (fst t), py (fst t)) = Ok c /\ op = Update c (snd t, dofZ 0)) (tests_of evs) ops ->
  on_events res m evs = unb_run (ops := FOps) lww_upd m ops.
Proof.
  induction evs as [|ev evs IH]; intros m l H.
  - inversion H. reflexivity.
  - destruct ev as [p|p s|p s|p s]; cbn [on_events on_event bind].
    + apply IH. exact H.
    + change (tests_of (EvTest p s :: evs)) with ((p, s) :: tests_of evs) in H.
      inversion_clear H as [|? op ? ops' [c [Hc ->]] Ht]. cbn [fst snd] in Hc. rewrite Hc. cbn [bind unb_run unb_step fst snd].
      destruct (unb_update lww_upd m c (s, dofZ 0)) as [m'| | |]; cbn [bind]; try reflexivity. now apply IH.
    + apply IH. exact H.
    + apply IH. exact H.
Qed.

(** the last observation of a cell wins *)
Lemma last_wins (l : list (coord * occ)) : forall f c,
  t_run lww_upd f (map (fun w => WObserve (fst w) (snd w)) l) c =
  match find (fun w => coord_eqb (fst w) c) (rev l) with Some w => snd w | None => f c end.
Proof.
  induction l as [|w l IH] using rev_ind; intros f c; [reflexivity|].
  destruct w as [k v]. unfold t_run. rewrite map_app, fold_left_app. cbn [map fold_left t_step].
  rewrite rev_app_distr. cbn [rev app find].
  cbn [fst snd]. rewrite coord_eqb_dec. unfold t_write. destruct (coord_eq_dec k c) as [E|N].
  - subst k. destruct (coord_eq_dec c c) as [_|N]; [reflexivity|congruence].
  - destruct (coord_eq_dec c k) as [E|_]; [congruence|]. apply IH.
Qed.

(** Whatever the scan matcher and the scores: the map shows, in every cell, the score of the pose tested last among those
    standing on that cell, and 1/2 in cells no tested pose stands on. *)
Theorem C92_map_shows_the_scores : forall (E : Type) (en : enumerator F64 E) (score : pose F64 -> F64) (obs : observers)
    fuel e init r o (resolution : F64) (M : Z),
  process_scan en score obs fuel e init = Ok r -> NoDup (map fst obs) -> In (o, true) obs ->
  0 <= M -> 4 * M + 200 < 2 ^ 31 ->
  (forall p, In p (mr_tested r) -> exists c, world_to_cell resolution (px p, py p) = Ok c /\ within M c) ->
  exists m, on_events resolution space_map (received o (mr_out r)) = Ok m /\
    forall c, unb_get m c =
      Ok (match find (stands_on resolution c) (rev (mr_tested r)) with
          | Some p => (score p, dofZ 0)
          | None => (dlit 1 2, dofZ 0)
          end).
Proof.
  intros E en score obs fuel e init r o res M H ND Ho HM HM2 Hc.
  destruct (C23_observer_protocol F64 FOps F_OrdLaws E en score obs fuel e init r o H ND Ho)
    as (evs & Er & _ & Et & Es & _).
  rewrite Er.
  set (all := EvStart init :: EvTest init (score init) :: EvUpdate init (score init) :: evs ++ [EvEnd (mr_delta r) (mr_prob r)]).
  assert (Ta : tests_of all = map (fun p => (p, score p)) (mr_tested r)).
  { unfold all. change (tests_of (EvStart init :: EvTest init (score init) :: EvUpdate init (score init) :: evs ++ [EvEnd (mr_delta r) (mr_prob r)]))
      with ((init, score init) :: tests_of (evs ++ [EvEnd (mr_delta r) (mr_prob r)])).
    rewrite Et. cbn [map]. f_equal. unfold tests_of. rewrite flat_map_app. cbn [flat_map]. rewrite app_nil_r.
    fold (tests_of evs). clear - Es. induction (tests_of evs) as [|[p s] l IH]; [reflexivity|].
    cbn [map fst]. rewrite (Es p s) by (left; reflexivity). f_equal. apply IH. intros p' s' Hin. apply Es. right. exact Hin. }
  (* the cells of the tested poses *)
  assert (Cs : exists ws : list (coord * occ),
    map snd ws = map (fun p => (score p, dofZ 0)) (mr_tested r) /\
    Forall2 (fun p w => world_to_cell res (px p, py p) = Ok (fst w) /\ within M (fst w) /\ snd w = (score p, dofZ 0)) (mr_tested r) ws).
  { clear - Hc. induction (mr_tested r) as [|p l IH]; [exists []; split; [reflexivity|constructor]|].
    destruct (Hc p ltac:(left; reflexivity)) as [c [Hp Hw]]. destruct IH as [ws [I1 I2]]; [intros q Hq; apply Hc; right; exact Hq|].
    exists ((c, (score p, dofZ 0)) :: ws). split; [cbn; now rewrite I1|]. constructor; [cbn; auto|exact I2]. }
  destruct Cs as [ws [_ Cs]].
  rewrite (on_events_run res all space_map (map (fun w => Update (fst w) (snd w)) ws)).
  2:{ rewrite Ta. clear - Cs. induction Cs as [|p w ps ws [H1 [_ H3]] _ IH]; [constructor|].
      destruct w as [k v]. cbn [fst snd] in H1, H3. subst v. cbn [map]. constructor; [|exact IH]. exists k. split; [exact H1|reflexivity]. }
  destruct (C05_unbounded_plain_map_refines_total_map occ occ lww_upd (lww_cell (dlit 1 2)) 100 100 M
              (map (fun w => Update (fst w) (snd w)) ws)) as [m [Hm [Hg _]]]; [lia|lia|lia|lia| |].
  { intros op Hop. apply in_map_iff in Hop. destruct Hop as [w [<- Hw]]. cbn [op_write w_coord].
    clear - Cs Hw. induction Cs as [|p w' ps ws [_ [H2 _]] _ IH]; [destruct Hw|]. destruct Hw as [->|Hw]; [exact H2|now apply IH]. }
  exists m. split; [exact Hm|]. intros c. rewrite Hg. f_equal.
  rewrite map_map. change (map (fun x => op_write (Update (fst x) (snd x))) ws) with (map (fun w : coord * occ => @WObserve occ occ (fst w) (snd w)) ws).
  rewrite last_wins.
  assert (Fr : Forall2 (fun p w => world_to_cell res (px p, py p) = Ok (fst w) /\ within M (fst w) /\ snd w = (score p, dofZ 0))
                 (rev (mr_tested r)) (rev ws)).
  { clear - Cs. induction Cs as [|p w ps ws0 Hw _ IH]; [constructor|]. cbn [rev]. apply Forall2_app; [exact IH|]. constructor; [exact Hw|constructor]. }
  clear - Fr. induction Fr as [|p w ps ws0 [H1 [_ H3]] _ IH]; [reflexivity|].
  destruct w as [k v]. cbn [fst snd] in H1, H3. cbn [find fst]. unfold stands_on at 1. rewrite H1.
  destruct (coord_eqb k c); [exact H3|exact IH].
Qed.
Print Assumptions C92_map_shows_the_scores.

(** ** the search of the tool *)
Fixpoint steps_list (fuel : nat) (step to v : F64) : option (list F64) :=
  match fuel with
  | O => None
  | S fuel => if dlt v to then match steps_list fuel step to (dadd v step) with Some l => Some (v :: l) | None => None end
              else Some [v]
  end.
Lemma steps_list_until fuel step to : forall v l, steps_list fuel step to v = Some l -> steps_until step to v l.
Proof.
  induction fuel as [|fuel IH]; intros v l H; [discriminate|]. cbn [steps_list] in H.
  destruct (dlt v to) eqn:L.
  - destruct (steps_list fuel step to (dadd v step)) as [l'|] eqn:E; [|discriminate].
    assert (X : l = v :: l') by congruence. subst l. constructor; [exact L|now apply IH].
  - assert (X : l = [v]) by congruence. subst l. now constructor.
Qed.

Definition tool_steps : list F64 :=
  match steps_list 300 tool_resolution (dofZ 1) (dofZ (-1)) with Some l => l | None => [] end.

(** the index of the row or column of cells the translation [x] leads to *)
Definition tool_index (x : F64) : option Z :=
  let v := dadd (dlit 5 100) x in
  if dispinf v then None else match floor_int (ddiv v tool_resolution) with Ok z => Some z | _ => None end.

Definition zseq (from : Z) (n : nat) : list Z := map (fun k => from + Z.of_nat k) (seq 0 n).
Definition opt_eqb (a b : option Z) : bool :=
  match a, b with Some x, Some y => x =? y | None, None => true | _, _ => false end.
Fixpoint list_eqb (a b : list (option Z)) : bool :=
  match a, b with
  | [], [] => true
  | x :: a, y :: b => opt_eqb x y && list_eqb a b
  | _, _ => false
  end.
Lemma list_eqb_eq a : forall b, list_eqb a b = true -> a = b.
Proof.
  induction a as [|x a IH]; intros [|y b] H; cbn in H; try discriminate; [reflexivity|].
  apply andb_prop in H. destruct H as [H1 H2]. rewrite (IH b H2). f_equal.
  destruct x, y; cbn in H1; try discriminate; [|reflexivity]. apply Z.eqb_eq in H1. congruence.
Qed.

Lemma tool_steps_until : steps_until tool_resolution (dofZ 1) (dofZ (-1)) tool_steps.
Proof.
  apply (steps_list_until 300). unfold tool_steps.
  assert (H : (if steps_list 300 tool_resolution (dofZ 1) (dofZ (-1)) then true else false) = true) by (vm_compute; reflexivity).
  destruct (steps_list 300 tool_resolution (dofZ 1) (dofZ (-1))); [reflexivity|discriminate].
Qed.
Lemma tool_cells : map tool_index tool_steps = map Some (zseq (-95) 201).
Proof. apply list_eqb_eq. vm_compute. reflexivity. Qed.
Lemma tool_steps_while : steps_while (dlit 1 10 : F64) (dofZ 0) (dofZ 0) [dofZ 0].
Proof.
  constructor; [vm_compute; reflexivity|]. constructor. vm_compute. reflexivity.
Qed.

Lemma tool_nth a x : nth_error tool_steps a = Some x -> tool_index x = Some (-95 + Z.of_nat a) /\ (a < 201)%nat.
Proof.
  intros H. assert (L : length tool_steps = 201%nat).
  { assert (E := f_equal (@length _) tool_cells). rewrite !map_length in E. unfold zseq in E. rewrite map_length, seq_length in E. exact E. }
  assert (Ha : (a < 201)%nat) by (rewrite <- L; apply nth_error_Some; congruence).
  split; [|exact Ha].
  assert (E : nth_error (map tool_index tool_steps) a = Some (tool_index x)) by (apply map_nth_error; exact H).
  rewrite tool_cells in E.
  assert (E2 : nth_error (map Some (zseq (-95) 201)) a = Some (Some (-95 + Z.of_nat a))).
  { apply map_nth_error. unfold zseq. rewrite (map_nth_error (fun k => -95 + Z.of_nat k) a (seq 0 201) (d := a)); [reflexivity|].
    rewrite nth_error_nth' with (d := 0%nat) by (rewrite seq_length; exact Ha). rewrite seq_nth by exact Ha. reflexivity. }
  congruence.
Qed.

Lemma tool_cell x y i j : tool_index x = Some i -> tool_index y = Some j ->
  world_to_cell tool_resolution (px (pose_add tool_pose (mkPose x y (dofZ 0))), py (pose_add tool_pose (mkPose x y (dofZ 0)))) = Ok (i, j).
Proof.
  unfold tool_index. intros Hx Hy. unfold world_to_cell, pose_add, tool_pose, ptx, pty. cbn [px py fst snd].
  destruct (dispinf (dadd (dlit 5 100) x)); [discriminate|]. destruct (dispinf (dadd (dlit 5 100) y)); [discriminate|].
  cbn [negb andb assert_ bind].
  destruct (floor_int (ddiv (dadd (dlit 5 100) x) tool_resolution)); try discriminate.
  destruct (floor_int (ddiv (dadd (dlit 5 100) y) tool_resolution)); try discriminate. cbn [bind]. congruence.
Qed.

Lemma offsets_length (xs : list F64) t : length (offsets xs xs [t]) = (length xs * length xs)%nat.
Proof.
  assert (G : forall ys : list F64, length (flat_map (fun y => map (fun x => mkPose x y t) xs) ys) = (length ys * length xs)%nat).
  { induction ys as [|y ys IH]; [reflexivity|]. cbn [flat_map length]. rewrite app_length, IH, map_length. lia. }
  unfold offsets. cbn [flat_map]. rewrite app_nil_r. apply G.
Qed.
Lemma in_offsets (xs : list F64) t p : In p (offsets xs xs [t]) <-> exists a b x y, nth_error xs a = Some x /\ nth_error xs b = Some y /\ p = mkPose x y t.
Proof.
  unfold offsets. cbn [flat_map]. rewrite app_nil_r, in_flat_map. split.
  - intros [y [Hy H]]. apply in_map_iff in H. destruct H as [x [<- Hx]].
    apply In_nth_error in Hx. apply In_nth_error in Hy. destruct Hx as [a Hx], Hy as [b Hy]. exists a, b, x, y. auto.
  - intros (a & b & x & y & Hx & Hy & ->). exists y. split; [eapply nth_error_In; exact Hy|].
    apply in_map_iff. exists x. split; [reflexivity|]. eapply nth_error_In; exact Hx.
Qed.

Lemma find_rev_cons {A} (f : A -> bool) (a : A) l p : In p l -> f p = true -> (forall q, In q l -> f q = true -> q = p) ->
  find f (rev (a :: l)) = Some p.
Proof.
  intros Hp Hf Hu. cbn [rev].
  assert (E : find f (rev l) = Some p).
  { destruct (find f (rev l)) as [q|] eqn:F.
    - apply find_some in F. destruct F as [F1 F2]. f_equal. apply Hu; [now apply in_rev|exact F2].
    - exfalso. assert (W := find_none _ _ F p). rewrite <- in_rev in W. specialize (W Hp). congruence. }
  revert E. generalize (rev l). intros k. induction k as [|x k IH]; [discriminate|]. cbn [find app].
  destruct (f x); auto.
Qed.

Lemma coord_eqb_true c c' : coord_eqb c c' = true <-> c = c'.
Proof. rewrite coord_eqb_dec. destruct (coord_eq_dec c c'); split; congruence. Qed.

(** The search of the tool (translations from -1 m to 1 m by 1 cm around the pose (0.05, 0.05, 0), no rotation), in binary64
    arithmetic and for any scores: 201 x 201 translations are tested, and despite the accumulated rounding errors each of
    them has a cell of its own in the map, which shows its score; all other cells show 1/2. *)
Theorem C92_tool_draws_every_translation : forall (score : pose F64 -> F64) (obs : observers) (o : Z) (fuel : nat),
  NoDup (map fst obs) -> In (o, true) obs -> (201 * 201 <= fuel)%nat ->
  exists r m xs,
    process_scan (bf_enum (tool_cfg tool_resolution)) score obs fuel (bf_new (tool_cfg tool_resolution)) tool_pose = Ok r /\
    on_events tool_resolution space_map (received o (mr_out r)) = Ok m /\
    steps_until tool_resolution (dofZ 1) (dofZ (-1)) xs /\ length xs = 201%nat /\
    (forall a b x y, nth_error xs a = Some x -> nth_error xs b = Some y ->
       unb_get m (-95 + Z.of_nat a, -95 + Z.of_nat b) = Ok (score (pose_add tool_pose (mkPose x y (dofZ 0))), dofZ 0)) /\
    (forall c, ~ (-95 <= fst c <= 105 /\ -95 <= snd c <= 105) -> unb_get m c = Ok (dlit 1 2, dofZ 0)).
Proof.
  intros score obs o fuel ND Ho Hf.
  assert (L : length tool_steps = 201%nat).
  { assert (E := f_equal (@length _) tool_cells). rewrite !map_length in E. unfold zseq in E. rewrite map_length, seq_length in E. exact E. }
  pose proof tool_nth as TN. pose proof tool_steps_until as TU. revert TN TU L. generalize tool_steps. intros xs TN TU L.
  destruct (C24_brute_force_sequence F64 FOps (tool_cfg tool_resolution) score obs tool_pose xs xs [dofZ 0]
              TU TU tool_steps_while fuel) as (r & HR & HT & _).
  { rewrite offsets_length, L. exact Hf. }
  set (offs := offsets xs xs [dofZ 0]) in *.
  assert (T : forall p, In p (shifted tool_pose offs) <-> exists a b x y, nth_error xs a = Some x /\ nth_error xs b = Some y /\
                p = pose_add tool_pose (mkPose x y (dofZ 0))).
  { intros p. unfold shifted. rewrite in_map_iff. split.
    - intros [q [<- Hq]]. unfold offs in Hq. apply (in_offsets xs (dofZ 0)) in Hq. destruct Hq as (a & b & x & y & H1 & H2 & ->). exists a, b, x, y. auto.
    - intros (a & b & x & y & H1 & H2 & ->). exists (mkPose x y (dofZ 0)). split; [reflexivity|]. unfold offs. apply (in_offsets xs (dofZ 0)). exists a, b, x, y. auto. }
  assert (W0 : world_to_cell tool_resolution (px tool_pose, py tool_pose) = Ok (5, 5)) by (vm_compute; reflexivity).
  assert (Wp : forall p, In p (mr_tested r) -> exists c, world_to_cell tool_resolution (px p, py p) = Ok c /\
                (-95 <= fst c <= 105 /\ -95 <= snd c <= 105)).
  { rewrite HT. intros p [<-|Hp]; [exists (5, 5); split; [exact W0|cbn; lia]|].
    apply T in Hp. destruct Hp as (a & b & x & y & H1 & H2 & ->).
    destruct (TN a x H1) as [I1 A1]. destruct (TN b y H2) as [I2 A2].
    eexists. split; [apply tool_cell; eassumption|]. cbn [fst snd]. lia. }
  destruct (C92_map_shows_the_scores _ _ score obs fuel _ tool_pose r o tool_resolution 105 HR ND Ho) as [m [Hm Hg]]; [lia|lia| |].
  { intros p Hp. destruct (Wp p Hp) as [c [H1 H2]]. exists c. split; [exact H1|]. unfold within. lia. }
  exists r, m, xs. split; [exact HR|]. split; [exact Hm|]. split; [exact TU|]. split; [exact L|]. split.
  - intros a b x y Hx Hy. rewrite Hg, HT.
    destruct (TN a x Hx) as [I1 A1]. destruct (TN b y Hy) as [I2 A2].
    rewrite (find_rev_cons _ tool_pose _ (pose_add tool_pose (mkPose x y (dofZ 0)))); [reflexivity| | |].
    + apply T. exists a, b, x, y. auto.
    + unfold stands_on. rewrite (tool_cell x y _ _ I1 I2). apply coord_eqb_true. reflexivity.
    + intros q Hq Hs. apply T in Hq. destruct Hq as (a' & b' & x' & y' & H1 & H2 & ->).
      destruct (TN a' x' H1) as [I1' _]. destruct (TN b' y' H2) as [I2' _].
      unfold stands_on in Hs. rewrite (tool_cell x' y' _ _ I1' I2') in Hs. apply coord_eqb_true in Hs.
      assert (Ea : a' = a). { assert (X : -95 + Z.of_nat a' = -95 + Z.of_nat a) by congruence. lia. }
      assert (Eb : b' = b). { assert (X : -95 + Z.of_nat b' = -95 + Z.of_nat b) by congruence. lia. }
      subst a' b'. assert (X : x' = x) by congruence. assert (Y : y' = y) by congruence. now subst.
  - intros c Hc. rewrite Hg. destruct (find (stands_on tool_resolution c) (rev (mr_tested r))) as [p|] eqn:F; [|reflexivity].
    exfalso. apply find_some in F. destruct F as [F1 F2]. rewrite <- in_rev in F1.
    destruct (Wp p F1) as [c' [H1 H2]]. unfold stands_on in F2. rewrite H1 in F2. apply coord_eqb_true in F2. subst c'. exact (Hc H2).
Qed.
Print Assumptions C92_tool_draws_every_translation.

(** A case meeting the hypotheses: the observer of the tool is the only one. *)
Example C92_case : NoDup (map fst (subscribe [] 7)) /\ In (7, true) (subscribe [] 7).
Proof. split; [repeat constructor; intros []|left; reflexivity]. Qed.
