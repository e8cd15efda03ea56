(** C90: the bag adapter.  C91: the path publisher. *)
From Coq Require Import ZArith List Bool String Lia.
From Verif.Model Require Import RosTools.
From Verif.Spec Require Import RosToolsSpec.
Import ListNotations.
Local Open Scope string_scope.
Local Open Scope list_scope.

Section AdapterProofs.
  Context {Payload Grid : Type} (empty : Grid) (mf of : string).
  Notation corr := (is_correction (Payload := Payload) mf of).

  Definition renamed (t : tf_msg Payload) : tf_msg Payload := mkTf "/provided_map" "/map" (tf_data t).

  Lemma on_transform_eq first t :
    on_transform mf of first t =
    if corr t then (let g := match first with Some g => g | None => renamed t end in (Some g, g)) else (first, t).
  Proof.
    unfold on_transform, is_correction.
    destruct (String.eqb (tf_frame t) ("/" ++ mf)), (String.eqb (tf_child t) ("/" ++ of)); reflexivity.
  Qed.

  Lemma sent_app (a b : list (ad_out Payload Grid)) : sent_transforms (a ++ b) = sent_transforms a ++ sent_transforms b.
  Proof. apply flat_map_app. Qed.
  Lemma grids_app (a b : list (ad_out Payload Grid)) : published_grids (a ++ b) = published_grids a ++ published_grids b.
  Proof. apply flat_map_app. Qed.

  (** the state after a list of transforms, and what is sent, as functions of the first correction *)
  Definition first_of (first : option (tf_msg Payload)) (ts : list (tf_msg Payload)) : option (tf_msg Payload) :=
    match first with Some g => Some g | None => option_map renamed (find corr ts) end.
  Definition image (first : option (tf_msg Payload)) (ts : list (tf_msg Payload)) (t : tf_msg Payload) : tf_msg Payload :=
    if corr t then match first_of first ts with Some g => g | None => t end else t.

  Lemma image_cons first t ts u : In u ts ->
    image (if corr t then Some (match first with Some g => g | None => renamed t end) else first) ts u = image first (t :: ts) u.
  Proof.
    intros _. unfold image, first_of. cbn [find]. destruct first as [g|]; [destruct (corr t); reflexivity|].
    destruct (corr t); reflexivity.
  Qed.

  Lemma on_tf_msg_eq ts : forall first,
    on_tf_msg (Grid := Grid) mf of first ts = (first_of first ts, map (fun t => SendTf (image first ts t)) ts).
  Proof.
    induction ts as [|t ts IH]; intros first; [destruct first; reflexivity|].
    cbn [on_tf_msg]. rewrite on_transform_eq.
    assert (E : forall u, In u ts -> _ = _) by (intros u; exact (image_cons first t ts u)).
    destruct (corr t) eqn:C; cbv beta iota zeta.
    - rewrite IH. f_equal.
      + unfold first_of. cbn [find]. rewrite C. destruct first; reflexivity.
      + cbn [map]. f_equal.
        * unfold image, first_of. cbn [find]. rewrite C. destruct first; reflexivity.
        * apply map_ext_in. intros u Hu. f_equal. exact (E u Hu).
    - rewrite IH. f_equal.
      + unfold first_of. cbn [find]. rewrite C. reflexivity.
      + cbn [map]. f_equal.
        * unfold image. rewrite C. reflexivity.
        * apply map_ext_in. intros u Hu. f_equal. exact (E u Hu).
  Qed.

  Lemma first_of_app first a b : first_of (first_of first a) b = first_of first (a ++ b).
  Proof.
    unfold first_of. destruct first; [reflexivity|]. 
    induction a as [|x a IH]; [reflexivity|]. cbn [find app]. destruct (corr x); [reflexivity|exact IH].
  Qed.
  Lemma image_app_r first a b t : image (first_of first a) b t = image first (a ++ b) t.
  Proof. unfold image. rewrite first_of_app. reflexivity. Qed.
  Lemma image_app_l first a b t : In t a -> image first a t = image first (a ++ b) t.
  Proof.
    intros H. unfold image. destruct (corr t) eqn:C; [|reflexivity]. unfold first_of.
    destruct first; [reflexivity|].
    assert (E : find corr (a ++ b) = find corr a); [|now rewrite E].
    induction a as [|x a IH]; [destruct H|]. cbn [find app]. destruct (corr x) eqn:Cx; [reflexivity|].
    apply IH. destruct H as [->|H]; [congruence|exact H].
  Qed.

  Lemma ad_run_sent (es : list (ad_event Payload Grid)) : forall a,
    ad_first (fst (ad_run mf of a es)) = first_of (ad_first a) (received_transforms es) /\
    sent_transforms (snd (ad_run mf of a es)) = map (image (ad_first a) (received_transforms es)) (received_transforms es).
  Proof.
    induction es as [|e es IH]; intros a; [destruct a as [g [f|]]; split; reflexivity|].
    cbn [ad_run]. destruct e as [g|ts|]; cbn [ad_step].
    - specialize (IH (mkAd (mkGr "provided_map" (gr_data g)) (ad_first a))).
      destruct (ad_run mf of _ es) as [a' os]. cbn [fst snd] in *. cbn [app]. exact IH.
    - rewrite on_tf_msg_eq. specialize (IH (mkAd (ad_grid a) (first_of (ad_first a) ts))).
      destruct (ad_run mf of _ es) as [a' os]. cbn [fst snd ad_first] in *. destruct IH as [I1 I2]. split.
      + rewrite I1. change (received_transforms (OnTf ts :: es)) with (ts ++ received_transforms es). apply first_of_app.
      + rewrite sent_app, I2. change (received_transforms (OnTf ts :: es)) with (ts ++ received_transforms es).
        rewrite map_app. f_equal.
        * assert (S : forall (f : tf_msg Payload -> tf_msg Payload) l,
            sent_transforms (map (fun t => SendTf (Grid := Grid) (f t)) l) = map f l).
          { intros f l. induction l as [|x l IHl]; [reflexivity|]. cbn. f_equal. exact IHl. }
          rewrite S. apply map_ext_in. intros t Ht. now apply image_app_l.
        * apply map_ext. intros t. apply image_app_r.
    - specialize (IH a). destruct (ad_run mf of a es) as [a' os]. cbn [fst snd] in *.
      change (received_transforms (Tick :: es)) with (received_transforms es). split; [apply IH|].
      change ([PublishGrid (ad_grid a)] ++ os) with (PublishGrid (Payload := Payload) (ad_grid a) :: os). apply IH.
  Qed.

  Lemma ad_run_app (es1 : list (ad_event Payload Grid)) : forall es2 a,
    ad_run mf of a (es1 ++ es2) =
    (fst (ad_run mf of (fst (ad_run mf of a es1)) es2),
     snd (ad_run mf of a es1) ++ snd (ad_run mf of (fst (ad_run mf of a es1)) es2)).
  Proof.
    induction es1 as [|e es1 IH]; intros es2 a.
    - cbn [app ad_run fst snd]. destruct (ad_run mf of a es2); reflexivity.
    - cbn [app ad_run]. destruct (ad_step mf of a e) as [a1 o1]. rewrite IH.
      destruct (ad_run mf of a1 es1) as [a2 o2]. cbn [fst snd]. rewrite app_assoc. reflexivity.
  Qed.

  Lemma ad_grid_latest (es : list (ad_event Payload Grid)) : ad_grid (fst (ad_run mf of (adapter_init empty) es)) = latest_grid empty es.
  Proof.
    induction es as [|e es IH] using rev_ind; [reflexivity|].
    rewrite ad_run_app. cbn [fst ad_run]. unfold latest_grid. rewrite rev_app_distr. cbn [rev app find].
    destruct e as [g|ts|]; cbn [ad_step].
    - reflexivity.
    - destruct (on_tf_msg mf of _ ts) as [f os]. cbn [fst ad_grid]. rewrite IH. reflexivity.
    - cbn [fst]. rewrite IH. reflexivity.
  Qed.

  Lemma published_count (es : list (ad_event Payload Grid)) : forall a, List.length (published_grids (snd (ad_run mf of a es))) = List.length (filter is_tick es).
  Proof.
    induction es as [|e es IH]; intros a; [reflexivity|]. cbn [ad_run filter].
    destruct e as [g|ts|]; cbn [ad_step is_tick].
    - specialize (IH (mkAd (mkGr "provided_map" (gr_data g)) (ad_first a))).
      destruct (ad_run mf of _ es) as [a' os]. cbn [snd app] in *. exact IH.
    - rewrite on_tf_msg_eq. specialize (IH (mkAd (ad_grid a) (first_of (ad_first a) ts))).
      destruct (ad_run mf of _ es) as [a' os]. cbn [snd] in *. rewrite grids_app.
      assert (Z : forall l, published_grids (map (fun t => SendTf (image (ad_first a) ts t)) l) = @nil (grid_msg Grid)).
      { intros l. induction l as [|x l IHl]; [reflexivity|]. exact IHl. }
      rewrite Z. exact IH.
    - specialize (IH a). destruct (ad_run mf of a es) as [a' os]. cbn [snd List.length] in *.
      change ([PublishGrid (ad_grid a)] ++ os) with (PublishGrid (Payload := Payload) (ad_grid a) :: os).
      cbn [published_grids flat_map app List.length]. f_equal. exact IH.
  Qed.
End AdapterProofs.

(** Every transform of the bag is passed on once, in order and unchanged, but for the recorded pose corrections: each of
    them is replaced by the first one, sent as provided_map -> map (stamp included). *)
Theorem C90_transforms_are_passed_on : forall (Payload Grid : Type) (empty : Grid) (map_frame odom_frame : string)
    (es : list (ad_event Payload Grid)),
  let ts := received_transforms es in
  sent_transforms (snd (ad_run map_frame odom_frame (adapter_init empty) es)) =
  map (fun t => if is_correction map_frame odom_frame t then replacement map_frame odom_frame ts t else t) ts.
Proof.
  intros Payload Grid empty mf of es ts.
  destruct (ad_run_sent mf of es (adapter_init empty)) as [_ H]. rewrite H. apply map_ext.
  intros t. unfold image, replacement, first_of. cbn [ad_first adapter_init].
  destruct (is_correction mf of t); [|reflexivity]. fold ts. destruct (find (is_correction mf of) ts); reflexivity.
Qed.
Print Assumptions C90_transforms_are_passed_on.

(** So no recorded correction gets through (unless the frames are themselves called provided_map and map). *)
Theorem C90_no_correction_gets_through : forall (Payload Grid : Type) (empty : Grid) (map_frame odom_frame : string)
    (es : list (ad_event Payload Grid)) (t : tf_msg Payload),
  (map_frame, odom_frame) <> ("provided_map", "map") ->
  In t (sent_transforms (snd (ad_run map_frame odom_frame (adapter_init empty) es))) ->
  is_correction map_frame odom_frame t = false.
Proof.
  intros Payload Grid empty mf of es t N H. rewrite C90_transforms_are_passed_on in H.
  apply in_map_iff in H. destruct H as [u [E Hu]]. destruct (is_correction mf of u) eqn:C; [|congruence].
  unfold replacement in E. destruct (find (is_correction mf of) (received_transforms es)) as [c|] eqn:F.
  - subst t. unfold is_correction. cbn [tf_frame tf_child].
    destruct (String.eqb_spec "/provided_map" ("/" ++ mf)) as [A|A]; [|reflexivity].
    destruct (String.eqb_spec "/map" ("/" ++ of)) as [B|B]; [|reflexivity].
    exfalso. apply N. cbn [append] in A, B. f_equal; congruence.
  - exfalso. apply (find_none _ _ F) in Hu. congruence.
Qed.
Print Assumptions C90_no_correction_gets_through.

(** At every tick the grid received last is published, under the frame provided_map; before the first one, an empty grid. *)
Theorem C90_latest_grid_is_published : forall (Payload Grid : Type) (empty : Grid) (map_frame odom_frame : string)
    (es : list (ad_event Payload Grid)),
  let out := published_grids (snd (ad_run map_frame odom_frame (adapter_init empty) es)) in
  List.length out = List.length (filter is_tick es) /\
  forall before after, es = before ++ Tick :: after ->
    nth_error out (List.length (filter is_tick before)) = Some (latest_grid empty before).
Proof.
  intros Payload Grid empty mf of es out. split; [apply published_count|].
  intros before after ->. unfold out. rewrite ad_run_app. cbn [snd]. rewrite grids_app.
  rewrite nth_error_app2; rewrite published_count; [|lia]. rewrite PeanoNat.Nat.sub_diag.
  cbn [ad_run ad_step]. destruct (ad_run mf of (fst _) after) as [a' os]. cbn [snd].
  change ([PublishGrid (ad_grid (fst (ad_run mf of (adapter_init empty) before)))] ++ os) with
    (PublishGrid (Payload := Payload) (ad_grid (fst (ad_run mf of (adapter_init empty) before))) :: os).
  cbn [published_grids flat_map app nth_error]. rewrite ad_grid_latest. reflexivity.
Qed.
Print Assumptions C90_latest_grid_is_published.

Example C90_case :
  let t a b n := mkTf a b n in
  snd (ad_run "map" "odom_combined" (adapter_init 0%nat)
     [Tick; OnTf [t "/odom_combined" "/base" 1%nat; t "/map" "/odom_combined" 2%nat]; OnGrid (mkGr "/map" 7%nat);
      OnTf [t "/map" "/odom_combined" 3%nat]; Tick]) =
  [PublishGrid (mkGr "" 0%nat); SendTf (t "/odom_combined" "/base" 1%nat); SendTf (t "/provided_map" "/map" 2%nat);
   SendTf (t "/provided_map" "/map" 2%nat); PublishGrid (mkGr "provided_map" 7%nat)].
Proof. reflexivity. Qed.

(** ** the path publisher *)
Section PathProofs.
  Context {D : Type} (zero : D) {Stamp : Type} (stamp0 : Stamp).
  Notation found := (found_poses zero (Stamp := Stamp)).

  Lemma get_pose_found ls : no_shutdown ls ->
    match get_current_pose zero stamp0 ls with
    | None => found ls = []
    | Some (p, ls') => found ls = p :: found ls' /\ no_shutdown ls' /\ (List.length ls' < List.length ls)%nat
    end.
  Proof.
    induction ls as [|l ls IH]; intros H; [reflexivity|].
    assert (Hl : no_shutdown ls) by (intros X; apply H; right; exact X).
    destruct l as [f s x y| |]; cbn [get_current_pose].
    - split; [reflexivity|]. split; [exact Hl|cbn; lia].
    - specialize (IH Hl). destruct (get_current_pose zero stamp0 ls) as [[p ls']|].
      + destruct IH as [A [B C]]. split; [exact A|]. split; [exact B|cbn; lia].
      + exact IH.
    - exfalso. apply H. left. reflexivity.
  Qed.

  (** the messages published for found poses [ps], when the path already has poses *)
  Fixpoint messages (frame : string) (done ps : list (stamped_pose D Stamp)) : list (path_msg D Stamp) :=
    match ps with
    | [] => []
    | p :: ps => mkPath frame (st_stamp p) (done ++ [p]) :: messages frame (done ++ [p]) ps
    end.

  Lemma publish_loop_found fuel : forall path ls, no_shutdown ls -> (List.length ls <= fuel)%nat ->
    publish_loop zero stamp0 fuel path ls = messages (pa_frame path) (pa_poses path) (found ls).
  Proof.
    induction fuel as [|fuel IH]; intros path ls H L.
    - destruct ls; [reflexivity|cbn in L; lia].
    - cbn [publish_loop]. assert (G := get_pose_found ls H).
      destruct ls as [|[f s x y| |] ls]; [reflexivity| | |exfalso; apply H; left; reflexivity].
      + destruct (get_current_pose zero stamp0 (Found f s x y :: ls)) as [[p ls']|].
        * destruct G as [-> [B C]]. rewrite IH by (assumption || lia). reflexivity.
        * rewrite G. reflexivity.
      + destruct (get_current_pose zero stamp0 (Failed :: ls)) as [[p ls']|].
        * destruct G as [-> [B C]]. rewrite IH by (assumption || lia). reflexivity.
        * rewrite G. reflexivity.
  Qed.

  Lemma messages_length frame ps : forall done, List.length (messages frame done ps) = List.length ps.
  Proof. induction ps as [|p ps IH]; intros done; [reflexivity|]. cbn. now rewrite IH. Qed.

  Lemma messages_nth frame ps : forall done k m, nth_error (messages frame done ps) k = Some m ->
    pa_frame m = frame /\ pa_poses m = done ++ firstn (S k) ps /\
    exists p, nth_error ps k = Some p /\ pa_stamp m = st_stamp p.
  Proof.
    induction ps as [|p ps IH]; intros done k m E; [destruct k; discriminate|].
    destruct k as [|k]; cbn [messages nth_error] in E.
    - assert (X : m = mkPath frame (st_stamp p) (done ++ [p])) by congruence. subst m.
      split; [reflexivity|]. split; [reflexivity|]. exists p. split; reflexivity.
    - destruct (IH _ _ _ E) as [A [B C]]. split; [exact A|]. split; [|exact C].
      rewrite B. cbn [firstn]. rewrite <- app_assoc. reflexivity.
  Qed.
End PathProofs.

(** While the node runs: one message per pose found; each lists all poses found so far, in order, and carries the frame of
    the map and the stamp of its last pose.  Failed lookups leave no trace. *)
Theorem C91_path_grows_by_each_pose_found : forall (D : Type) (zero : D) (Stamp : Type) (stamp0 : Stamp) (map_frame : string)
    (ls : list (lookup D Stamp)),
  no_shutdown ls ->
  let out := path_publisher zero stamp0 map_frame ls in
  List.length out = List.length (found_poses zero ls) /\
  forall k m, nth_error out k = Some m ->
    pa_frame m = map_frame /\ pa_poses m = firstn (S k) (found_poses zero ls) /\
    exists p, nth_error (found_poses zero ls) k = Some p /\ pa_stamp m = st_stamp p.
Proof.
  intros D zero Stamp stamp0 mf ls H out. unfold out, path_publisher.
  rewrite publish_loop_found by (assumption || lia). cbn [pa_frame pa_poses].
  split; [apply messages_length|]. intros k m E. apply (messages_nth mf _ [] k m E).
Qed.
Print Assumptions C91_path_grows_by_each_pose_found.

(** Shut down while waiting for the first transform: the path passed to publish() has an invented pose at the origin. *)
Theorem C91_invented_pose_refuted : forall (D : Type) (zero : D) (Stamp : Type) (stamp0 : Stamp) (map_frame : string),
  path_publisher zero stamp0 map_frame [Failed; Shutdown] =
    [mkPath map_frame stamp0 [mkSPose "" stamp0 zero zero zero zero zero zero zero]] /\
  found_poses zero [Failed; Shutdown] = @nil (stamped_pose D Stamp).
Proof. split; reflexivity. Qed.
Print Assumptions C91_invented_pose_refuted.

(** In general: after the shutdown at most one more message is passed on, when the shutdown came while waiting. *)
Theorem C91_shutdown : forall (D : Type) (zero : D) (Stamp : Type) (stamp0 : Stamp) (map_frame : string)
    (before after : list (lookup D Stamp)),
  no_shutdown before ->
  let ps := found_poses zero before in
  path_publisher zero stamp0 map_frame (before ++ Shutdown :: after) =
  path_publisher zero stamp0 map_frame before ++
    match last before Shutdown with
    | Failed => [mkPath map_frame stamp0 (ps ++ [default_pose zero stamp0])]
    | _ => []
    end.
Proof.
  intros D zero Stamp stamp0 mf before after H ps.
  assert (G : forall fuel fuel' bef path, no_shutdown bef -> (List.length bef < fuel)%nat -> (List.length bef <= fuel')%nat ->
    publish_loop zero stamp0 fuel path (bef ++ Shutdown :: after) =
    publish_loop zero stamp0 fuel' path bef ++
      match last bef Shutdown with
      | Failed => [mkPath (pa_frame path) stamp0 (pa_poses path ++ found_poses zero bef ++ [default_pose zero stamp0])]
      | _ => []
      end).
  { induction fuel as [|fuel IH]; intros fuel' bef path Hb L L'; [lia|].
    destruct bef as [|b0 bef].
    - cbn. destruct fuel'; reflexivity.
    - destruct fuel' as [|fuel']; [cbn in L'; lia|].
      assert (Hb' : no_shutdown bef) by (intros X; apply Hb; right; exact X).
      (* the next pose of [bef], or none *)
      assert (Q : forall bs, no_shutdown bs ->
        match get_current_pose zero stamp0 bs with
        | Some (p, bs') => get_current_pose zero stamp0 (bs ++ Shutdown :: after) = Some (p, bs' ++ Shutdown :: after) /\
            no_shutdown bs' /\ (List.length bs' < List.length bs)%nat /\ found_poses zero bs = p :: found_poses zero bs' /\
            (bs' <> [] -> last bs Shutdown = last bs' Shutdown) /\
            (bs' = [] -> last bs Shutdown <> Failed)
        | None => get_current_pose zero stamp0 (bs ++ Shutdown :: after) = Some (default_pose zero stamp0, Shutdown :: after) /\
            found_poses zero bs = [] /\ (bs <> [] -> last bs Shutdown = Failed)
        end).
      { induction bs as [|x bs IHb]; intros Hn; [cbn; split; [reflexivity|]; split; [reflexivity|congruence]|].
        assert (Hn' : no_shutdown bs) by (intros X; apply Hn; right; exact X).
        destruct x as [f s x y| |]; cbn [get_current_pose app].
        - split; [reflexivity|]. split; [exact Hn'|]. split; [cbn; lia|]. split; [reflexivity|].
          split.
          + intros Ne. destruct bs; [congruence|reflexivity].
          + intros ->. cbn. discriminate.
        - specialize (IHb Hn'). destruct (get_current_pose zero stamp0 bs) as [[p bs']|].
          + destruct IHb as [A [B [C [F [La Lb]]]]]. split; [exact A|]. split; [exact B|]. split; [cbn; lia|]. split; [exact F|].
            destruct bs as [|b1 bs]; [cbn in C; lia|]. split.
            * intros Ne. exact (La Ne).
            * intros E. exact (Lb E).
          + destruct IHb as [A [B C]]. split; [exact A|]. split; [exact B|]. intros _.
            destruct bs as [|b1 bs]; [reflexivity|]. apply C. discriminate.
        - exfalso. apply Hn. left. reflexivity. }
      specialize (Q (b0 :: bef) Hb).
      assert (P1 : publish_loop zero stamp0 (S fuel) path ((b0 :: bef) ++ Shutdown :: after) =
        match get_current_pose zero stamp0 ((b0 :: bef) ++ Shutdown :: after) with
        | None => []
        | Some (p, ls) => let q := mkPath (pa_frame path) (st_stamp p) (pa_poses path ++ [p]) in q :: publish_loop zero stamp0 fuel q ls
        end).
      { destruct b0; try reflexivity. exfalso. apply Hb. left. reflexivity. }
      assert (P2 : publish_loop zero stamp0 (S fuel') path (b0 :: bef) =
        match get_current_pose zero stamp0 (b0 :: bef) with
        | None => []
        | Some (p, ls) => let q := mkPath (pa_frame path) (st_stamp p) (pa_poses path ++ [p]) in q :: publish_loop zero stamp0 fuel' q ls
        end).
      { destruct b0; try reflexivity. exfalso. apply Hb. left. reflexivity. }
      rewrite P1, P2. destruct (get_current_pose zero stamp0 (b0 :: bef)) as [[p bs']|].
      + destruct Q as [E [B [C [F [La Lb]]]]]. rewrite E. cbv zeta. cbn [app]. f_equal.
        rewrite (IH fuel') by (assumption || lia). f_equal. cbn [pa_frame pa_poses].
        destruct bs' as [|b1 bs'].
        * assert (Lb' := Lb eq_refl). change (last (@nil (lookup D Stamp)) Shutdown) with (@Shutdown D Stamp).
          destruct (last (b0 :: bef) Shutdown); [reflexivity|congruence|reflexivity].
        * rewrite (La ltac:(discriminate)). destruct (last (b1 :: bs') Shutdown); try reflexivity.
          rewrite F. rewrite <- !app_assoc. reflexivity.
      + destruct Q as [E [F C]]. rewrite E. cbv zeta. rewrite C by discriminate. rewrite F. cbn [app].
        destruct fuel; reflexivity. }
  unfold path_publisher. rewrite (G _ (List.length before)); [reflexivity|exact H| |lia].
  rewrite app_length. cbn. lia.
Qed.
Print Assumptions C91_shutdown.

(** No published pose has a direction: its quaternion is zero. *)
Theorem C91_poses_have_no_direction_refuted : forall (D : Type) (zero : D) (Stamp : Type) (stamp0 : Stamp) (map_frame : string)
    (ls : list (lookup D Stamp)) (m : path_msg D Stamp) (p : stamped_pose D Stamp),
  In m (path_publisher zero stamp0 map_frame ls) -> In p (pa_poses m) ->
  st_qx p = zero /\ st_qy p = zero /\ st_qz p = zero /\ st_qw p = zero /\ st_z p = zero.
Proof.
  intros D zero Stamp stamp0 mf ls m p Hm Hp.
  set (flat := fun q : stamped_pose D Stamp => st_qx q = zero /\ st_qy q = zero /\ st_qz q = zero /\ st_qw q = zero /\ st_z q = zero).
  assert (G : forall ls p ls', get_current_pose zero stamp0 ls = Some (p, ls') -> flat p).
  { clear. intros ls. induction ls as [|[f s x y| |] ls IH]; intros p ls' E; cbn in E; try discriminate.
    - assert (X : p = mkSPose f s x y zero zero zero zero zero) by congruence. subst p. repeat split.
    - exact (IH _ _ E).
    - assert (X : p = default_pose zero stamp0) by congruence. subst p. repeat split. }
  assert (A : forall fuel path ls, Forall flat (pa_poses path) -> Forall (fun q => Forall flat (pa_poses q)) (publish_loop zero stamp0 fuel path ls)).
  { clear - G. induction fuel as [|fuel IH]; intros path ls H; [constructor|]. cbn [publish_loop].
    assert (B : Forall (fun q => Forall flat (pa_poses q))
       match get_current_pose zero stamp0 ls with
       | None => []
       | Some (p, ls) => let path := mkPath (pa_frame path) (st_stamp p) (pa_poses path ++ [p]) in path :: publish_loop zero stamp0 fuel path ls
       end).
    { destruct (get_current_pose zero stamp0 ls) as [[p ls']|] eqn:E; [|constructor]. cbv zeta.
      assert (C : Forall flat (pa_poses path ++ [p])).
      { apply Forall_app. split; [exact H|]. constructor; [exact (G _ _ _ E)|constructor]. }
      constructor; [exact C|]. apply IH. exact C. }
    destruct ls as [|[f s x y| |] ls]; [exact B|exact B|exact B|constructor]. }
  specialize (A (List.length ls) (mkPath mf stamp0 []) ls ltac:(constructor)).
  rewrite Forall_forall in A. specialize (A m Hm). rewrite Forall_forall in A. exact (A p Hp).
Qed.
Print Assumptions C91_poses_have_no_direction_refuted.

Example C91_case :
  path_publisher 0%Z 0%nat "map" [Failed; Found "map" 5%nat 1%Z 2%Z; Failed; Found "map" 6%nat 3%Z 4%Z] =
  [mkPath "map" 5%nat [mkSPose "map" 5%nat 1%Z 2%Z 0%Z 0%Z 0%Z 0%Z 0%Z];
   mkPath "map" 6%nat [mkSPose "map" 5%nat 1%Z 2%Z 0%Z 0%Z 0%Z 0%Z 0%Z; mkSPose "map" 6%nat 3%Z 4%Z 0%Z 0%Z 0%Z 0%Z 0%Z]] /\
  no_shutdown [Failed; Found "map" 5%nat 1%Z 2%Z; Failed; Found "map" 6%nat 3%Z 4%Z].
Proof. split; [reflexivity|]. intros [H|[H|[H|[H|[]]]]]; discriminate. Qed.
