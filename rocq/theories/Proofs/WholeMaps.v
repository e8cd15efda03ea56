(** Invariants of all the cells of a map, whatever its class (C94). *)
From Coq Require Import Reals ZArith List Bool Lia.
From Verif.Base Require Import Outcome Num.
From Verif.Model Require Import MathUtils Geometry Grid PlainMap LazyMap Cells Histogram Pyramid Config WholeSlam.
From Verif.Spec Require Import CellSpec WholeSpec.
From Verif.Proofs Require Import AreaRange CellProofs TbmFloatProofs WholeProofs.
Import ListNotations.

Lemma Forall_set_nth {A} (P : A -> Prop) l i x : Forall P l -> P x -> Forall P (set_nth l i x).
Proof. intros F X. revert i. induction F as [|a l Ha F IH]; intros [|i]; cbn [set_nth]; constructor; auto. Qed.
Lemma Forall_firstn {A} (P : A -> Prop) n l : Forall P l -> Forall P (firstn n l).
Proof. intros F. apply Forall_forall. intros x H. apply (proj1 (Forall_forall P l) F). rewrite <- (firstn_skipn n l). apply in_or_app. left. exact H. Qed.
Lemma Forall_skipn {A} (P : A -> Prop) n l : Forall P l -> Forall P (skipn n l).
Proof. intros F. apply Forall_forall. intros x H. apply (proj1 (Forall_forall P l) F). rewrite <- (firstn_skipn n l). apply in_or_app. right. exact H. Qed.
Lemma Forall_upd {A} (P : A -> Prop) l i f : Forall P l -> (forall x, P x -> P (f x)) -> Forall P (upd l i f).
Proof.
  intros F H. unfold upd. destruct (nth_error l i) as [x|] eqn:E; [|exact F]. apply Forall_app. split; [apply Forall_firstn, F|].
  constructor; [|apply Forall_skipn, F]. apply H. apply (proj1 (Forall_forall P l) F). eapply nth_error_In, E.
Qed.
Lemma Forall_repeat {A} (P : A -> Prop) (x : A) n : P x -> Forall P (repeat x n).
Proof. intros H. apply Forall_forall. intros y Y. apply repeat_spec in Y. subst y. exact H. Qed.
Lemma znth_In {A} (l : list A) i x : znth l i = Some x -> In x l.
Proof. unfold znth. destruct (i <? 0)%Z; [discriminate|]. apply nth_error_In. Qed.
Lemma Forall_in {A} (P : A -> Prop) l x : Forall P l -> In x l -> P x.
Proof. intros F H. exact (proj1 (Forall_forall P l) F x H). Qed.

Section Inv.
  Context {C Ob D : Type} {ops : DOps D}.
  Variables (cell_upd : C -> Ob -> C) (P : C -> Prop) (G : Ob -> Prop).
  Hypothesis Hupd : forall c o, P c -> G o -> P (cell_upd c o).

  (** ** plain maps *)
  Definition pinv (m : pmap C) : Prop := Forall (Forall P) (p_cells m) /\ P (p_proto m).
  Lemma pinv_new proto w h : P proto -> pinv (pmap_new proto w h).
  Proof using Type. intros H. split; [|exact H]. cbn [pmap_new p_cells]. apply Forall_repeat, Forall_repeat, H. Qed.
  Lemma pinv_internal m ic c : pinv m -> cell_internal m ic = Ok c -> P c.
  Proof using Type.
    intros [F _]. unfold cell_internal. destruct (znth (p_cells m) (cy ic)) as [row|] eqn:R; [|discriminate].
    destruct (znth row (cx ic)) as [v|] eqn:V; [|discriminate]. intros X. apply Ok_inj in X. subst v.
    apply znth_In in R. apply znth_In in V. exact (Forall_in _ _ _ (Forall_in _ _ _ F R) V).
  Qed.
  Lemma pinv_set m ic c m' : pinv m -> P c -> set_internal m ic c = Ok m' -> pinv m'.
  Proof using Type.
    intros [F Q] H. unfold set_internal. destruct (znth (p_cells m) (cy ic)) as [row|] eqn:R; [|discriminate].
    destruct (znth row (cx ic)) as [v|] eqn:V; [|discriminate]. intros X. apply Ok_inj in X. rewrite <- X. split; [|exact Q]. cbn [p_cells].
    apply Forall_set_nth; [exact F|]. apply Forall_set_nth; [|exact H]. apply znth_In in R. exact (Forall_in _ _ _ F R).
  Qed.
  Lemma pinv_get m c v : pinv m -> plain_get m c = Ok v -> P v.
  Proof using Type. intros I. unfold plain_get. destruct (assert_ _); try discriminate. cbn [bind]. apply pinv_internal, I. Qed.
  Lemma pinv_update m c o m' : pinv m -> G o -> plain_update cell_upd m c o = Ok m' -> pinv m'.
  Proof using Hupd.
    intros I H. unfold plain_update. destruct (plain_get m c) as [v| | |] eqn:E; try discriminate. cbn [bind]. apply pinv_set; [exact I|].
    apply Hupd; [|exact H]. eapply pinv_get; eassumption.
  Qed.
  Lemma grown_inv old proto nw px py h : Forall (Forall P) old -> P proto -> forall n y rs,
    grown_rows old proto nw px py h y n = Ok rs -> Forall (Forall P) rs.
  Proof using Type.
    intros F Q. induction n as [|n IH]; intros y rs; cbn [grown_rows]; [intros X; apply Ok_inj in X; rewrite <- X; constructor|].
    destruct (grown_row old proto nw px py h y) as [r| | |] eqn:R; try discriminate. cbn [bind].
    destruct (grown_rows old proto nw px py h (y + 1) n) as [rs'| | |] eqn:E; try discriminate. cbn [bind]. intros X. apply Ok_inj in X. rewrite <- X.
    constructor; [|eapply IH, E]. revert R. unfold grown_row. destruct (_ || _); [intros X'; apply Ok_inj in X'; rewrite <- X'; apply Forall_repeat, Q|].
    destruct (znth old (y - py)) as [row|] eqn:Z; [|discriminate]. unfold splice_row. destruct (_ && _); [|discriminate]. intros X'. apply Ok_inj in X'. rewrite <- X'.
    apply Forall_app. split; [apply Forall_firstn, Forall_repeat, Q|]. apply Forall_app. split; [|apply Forall_skipn, Forall_repeat, Q].
    apply znth_In in Z. exact (Forall_in _ _ _ F Z).
  Qed.
  Lemma pinv_inside m c m' : pinv m -> ensure_inside m c = Ok m' -> pinv m'.
  Proof using Type.
    intros I. unfold ensure_inside. destruct (has_internal_cell _ _ _); [intros X; apply Ok_inj in X; rewrite <- X; exact I|].
    repeat match goal with
    | |- (bind ?x _) = _ -> _ => destruct x eqn:?; try discriminate; cbn [bind]
    | |- (let '(_, _) := ?x in _) = _ -> _ => destruct x
    | |- context [let '(_, _) := ?x in _] => destruct x
    end.
    all: intros X; try (apply Ok_inj in X; rewrite <- X).
    all: try (split; [cbn [p_cells]; eapply grown_inv; [apply I|apply I|eassumption]|exact (proj2 I)]).
  Qed.
  Lemma pinv_uget m c v : pinv m -> unb_get m c = Ok v -> P v.
  Proof using Type.
    intros I. unfold unb_get. destruct (has_internal_cell _ _ _); [apply pinv_internal, I|]. intros X. apply Ok_inj in X. rewrite <- X. apply I.
  Qed.
  Lemma pinv_uupdate m c o m' : pinv m -> G o -> unb_update cell_upd m c o = Ok m' -> pinv m'.
  Proof using Hupd.
    intros I H. unfold unb_update. destruct (ensure_inside m c) as [m1| | |] eqn:E; try discriminate. cbn [bind]. apply pinv_inside in E; [|exact I].
    destruct (unb_get m1 c) as [v| | |] eqn:V; try discriminate. cbn [bind]. apply pinv_set; [exact E|].
    apply Hupd; [|exact H]. eapply pinv_uget; eassumption.
  Qed.

  (** ** lazily tiled maps *)
  Definition linv (s : lstate C) : Prop := Forall P (s_cells s).
  Lemma deref_inv s p v : linv s -> deref s p = Ok v -> P v.
  Proof using Type.
    intros I. unfold deref. destruct (nth_error _ _) as [w|] eqn:E; [|discriminate]. intros X. apply Ok_inj in X. subst w. exact (Forall_in _ _ _ I (nth_error_In _ _ E)).
  Qed.
  Lemma lread_inv bits s i c v : linv s -> lread bits s i c = Ok v -> P v.
  Proof using Type.
    intros I. unfold lread, lget, lcell_internal. destruct (get_map s i) as [m| | |]; try discriminate. cbn [bind].
    destruct (l_unb m); [destruct (has_internal_cell _ _ _); [|apply deref_inv, I]|];
      (destruct (tile_at _ _ _) as [t| | |]; try discriminate; cbn [bind]; destruct (cell_ptr _ _ _ _) as [p| | |]; try discriminate; cbn [bind]; apply deref_inv, I).
  Qed.
  Lemma lupdate_inv bits s i c o s' : linv s -> G o -> lstep bits cell_upd s (LUpdate i c o) = Ok s' -> linv s'.
  Proof using Hupd.
    intros I H. cbn [lstep]. unfold prepare. destruct (get_map s i) as [m| | |]; try discriminate. cbn [bind].
    assert (K : forall s1, linv s1 -> lazy_update bits cell_upd s1 i c o = Ok s' -> linv s').
    { clear s I m. intros s I. unfold lazy_update, ensure_sole_owning.
      assert (T : forall s1, own_tile bits s i c = Ok s1 -> linv s1).
      { intros s1. unfold own_tile. destruct (get_map s i) as [m| | |]; try discriminate. cbn [bind]. destruct (tile_at _ _ _) as [t| | |]; try discriminate. cbn [bind].
        destruct (Nat.ltb _ _); [|intros X; apply Ok_inj in X; rewrite <- X; exact I]. destruct (nth_error _ _) as [cells|]; try discriminate.
        intros X. apply Ok_inj in X. rewrite <- X. exact I. }
      destruct (own_tile bits s i c) as [s1| | |]; try discriminate. cbn [bind]. specialize (T s1 eq_refl).
      assert (T2 : forall s2, own_cell bits s1 i c = Ok s2 -> linv s2).
      { intros s2. unfold own_cell. destruct (get_map s1 i) as [m| | |]; try discriminate. cbn [bind]. destruct (tile_at _ _ _) as [t| | |]; try discriminate. cbn [bind].
        destruct (cell_ptr _ _ _ _) as [p| | |]; try discriminate. cbn [bind].
        destruct (Nat.ltb _ _); [|intros X; apply Ok_inj in X; rewrite <- X; exact T]. destruct (deref s1 p) as [v| | |] eqn:V; try discriminate. cbn [bind].
        intros X. apply Ok_inj in X. rewrite <- X. unfold linv. cbn. apply Forall_app. split; [exact T|]. constructor; [|constructor]. eapply deref_inv; eassumption. }
      destruct (own_cell bits s1 i c) as [s2| | |]; try discriminate. cbn [bind]. specialize (T2 s2 eq_refl).
      destruct (get_map s2 i) as [m| | |]; try discriminate. cbn [bind].
      match goal with |- bind ?x _ = _ -> _ => destruct x as [p| | |]; try discriminate end. cbn [bind].
      destruct (deref s2 p) as [v| | |] eqn:V; try discriminate. cbn [bind]. intros X. apply Ok_inj in X. rewrite <- X. unfold linv, set_cell_value. cbn [s_cells].
      apply Forall_set_nth; [exact T2|]. apply Hupd; [|exact H]. eapply deref_inv; eassumption. }
    destruct (l_unb m); [|apply K, I]. destruct (lazy_ensure_inside bits m c) as [m'| | |]; try discriminate. cbn [bind]. apply K. exact I.
  Qed.
  Lemma lcreate_inv bits unb proto w h s s' : linv s -> P proto -> lstep bits cell_upd s (LCreate unb proto w h) = Ok s' -> linv s'.
  Proof using Type.
    intros I H. cbn [lstep]. destruct (alloc_cell s proto) as [uc s1] eqn:E. unfold alloc_cell in E. injection E as E1 E2. subst s1.
    destruct (alloc_tile _ _) as [ut s2] eqn:E. unfold alloc_tile in E. injection E as E3 E4. subst s2. intros X. apply Ok_inj in X. rewrite <- X.
    unfold linv. cbn [s_cells]. apply Forall_app. split; [exact I|]. constructor; [exact H|constructor].
  Qed.
End Inv.

(** ** rescalable maps *)
Section PInv.
  Context {C D : Type} {ops : DOps D}.
  Variables (P : C -> Prop) (proto : C) (infinity : D) (grow : Z -> Z -> coord -> coord -> Z * Z * coord).
  Variables (impact : C -> D) (unk : C -> bool).
  Hypothesis Hproto : P proto.
  Definition vinv (l : level D C) : Prop := forall c, P (lv_cells l c).
  Definition yinv (p : pyramid D C) : Prop := Forall vinv (py_levels p).
  Lemma vinv_new w h s : vinv (new_level proto w h s).
  Proof using Hproto. intros c. exact Hproto. Qed.
  Lemma vinv_write l c v : vinv l -> P v -> vinv (write_cell grow l c v).
  Proof using Type. intros I H q. unfold write_cell. destruct (grow _ _ _ _) as [[w h] o]. cbn [lv_cells]. destruct (coord_eqb q c); [exact H|apply I]. Qed.
  Lemma new_levels_inv : forall fuel w h s ls, new_levels proto fuel w h s = Ok ls -> Forall vinv ls.
  Proof using Hproto.
    induction fuel as [|fuel IH]; intros w h s ls; cbn [new_levels]; destruct (_ || _)%bool; try discriminate; try (intros X; apply Ok_inj in X; rewrite <- X; constructor).
    destruct (new_levels proto fuel _ _ _) as [l| | |] eqn:E; try discriminate. cbn [bind]. intros X. apply Ok_inj in X. rewrite <- X. constructor; [apply vinv_new|eapply IH, E].
  Qed.
  Lemma continuous_inv ls ls' : Forall vinv ls -> ensure_continuous proto ls = Ok ls' -> Forall vinv ls'.
  Proof using Hproto.
    intros I. unfold ensure_continuous. destruct (_ <? _)%nat; [intros X; apply Ok_inj in X; rewrite <- X; exact I|].
    destruct (nth_error ls _) as [pc|]; try discriminate. destruct (_ && _)%bool; [intros X; apply Ok_inj in X; rewrite <- X; exact I|].
    destruct (ge_pow 33 2 (lv_w pc)) as [w| | |]; try discriminate. cbn [bind]. destruct (ge_pow 33 2 (lv_h pc)) as [h| | |]; try discriminate. cbn [bind].
    destruct (new_levels proto 40 w h (lv_scale pc)) as [l| | |] eqn:E; try discriminate. cbn [bind]. intros X. apply Ok_inj in X. rewrite <- X.
    apply Forall_app. split; [apply Forall_firstn, I|]. apply Forall_app. split; [eapply new_levels_inv, E|apply Forall_skipn, I].
  Qed.
  Lemma raise_cells_inv v : P v -> forall cs l u, vinv l -> vinv (fst (raise_cells grow impact unk l cs v u)).
  Proof using Type.
    intros H. induction cs as [|c cs IH]; intros l u I; cbn [raise_cells]; [exact I|].
    destruct (_ && _)%bool; apply IH; [exact I|apply vinv_write; assumption].
  Qed.
  Lemma raise_levels_inv v space : P v -> forall fuel ls id ls', Forall vinv ls -> raise_levels proto grow impact unk fuel ls id space v = Ok ls' -> Forall vinv ls'.
  Proof using Hproto.
    intros H. induction fuel as [|fuel IH]; intros ls id ls' I; cbn [raise_levels]; (destruct (ensure_continuous proto ls) as [l1| | |] eqn:E; try discriminate; cbn [bind]);
      apply continuous_inv in E; auto; (destruct (nth_error l1 id) as [l|] eqn:N; [|intros X; apply Ok_inj in X; rewrite <- X; exact E]); [discriminate|].
    destruct (level_raster l space) as [cs| | |]; try discriminate. cbn [bind].
    assert (V := raise_cells_inv v H cs l false (Forall_in _ _ _ E (nth_error_In _ _ N))).
    destruct (raise_cells grow impact unk l cs v false) as [l2 u]. cbn [fst] in V.
    assert (F : Forall vinv (upd l1 id (fun _ => l2))) by (apply Forall_upd; auto).
    destruct u; [apply IH, F|]. intros X. apply Ok_inj in X. rewrite <- X. exact F.
  Qed.
  Lemma m3_write_inv fuel p c f p' : (forall x, P x -> P (f x)) -> yinv p -> m3_write proto grow impact unk fuel p c f = Ok p' -> yinv p'.
  Proof using Hproto.
    intros Hf I. unfold m3_write, py_write. destruct (nth_error (py_levels p) (py_active p)) as [l|] eqn:N; try discriminate. cbn [bind py_levels py_active].
    assert (Vl : vinv l) by exact (Forall_in _ _ _ I (nth_error_In _ _ N)).
    assert (F : Forall vinv (upd (py_levels p) (py_active p) (fun _ => write_cell grow l c (f (lv_cells l c))))).
    { apply Forall_upd; [exact I|]. intros _ _. apply vinv_write; auto. }
    destruct (assert_ _); try discriminate. cbn [bind]. destruct (nth_error (upd _ _ _) _) as [l1|] eqn:N1; try discriminate.
    destruct (world_cell_bounds (lv_scale l1) c) as [sp| | |]; try discriminate. cbn [bind].
    destruct (raise_levels _ _ _ _ _ _ _ _ _) as [ls| | |] eqn:E; try discriminate. cbn [bind]. intros X. apply Ok_inj in X. rewrite <- X.
    unfold yinv. cbn [py_levels]. eapply raise_levels_inv; [|exact F|exact E]. exact (Forall_in _ _ _ F (nth_error_In _ _ N1) c).
  Qed.
  Lemma pyramid_new_inv w h s p : pyramid_new proto infinity w h s = Ok p -> yinv p.
  Proof using Hproto.
    unfold pyramid_new. destruct (ensure_continuous _ _) as [ls| | |] eqn:E; try discriminate. cbn [bind]. intros X. apply Ok_inj in X. rewrite <- X.
    unfold yinv. cbn [py_levels]. eapply continuous_inv; [|exact E]. constructor; [apply vinv_new|]. constructor; [apply vinv_new|constructor].
  Qed.
End PInv.

(** ** any map *)
Section AInv.
  Variables (proto : acell F64) (infinity : F64) (grow : Z -> Z -> coord -> coord -> Z * Z * coord).
  Variables (impact : acell F64 -> F64) (bound : nat).
  Hypothesis Hproto : prototype proto.
  Definition mine (c : acell F64) : Prop := good c /\ same_class proto c.
  Lemma mine_upd c a : mine c -> fgood_obs a -> mine (acell_upd c a).
  Proof using Type. intros [A B] H. split; [apply good_upd; assumption|]. revert B. generalize proto. intros p B. destruct p, c; exact B. Qed.
  Lemma mine_new : mine proto.
  Proof using Hproto. split; [apply good_new, Hproto|]. destruct proto; exact Logic.I. Qed.
  Definition ainv (m : amap F64) : Prop :=
    match m with MPlain m | MUnbounded m => pinv mine m | MLazy s _ => linv mine s | MRescalable p => yinv mine p end.
  Lemma ainv_update m c a m' : ainv m -> fgood_obs a -> amap_update proto grow impact bound m c a = Ok m' -> ainv m'.
  Proof using Hproto.
    intros I H. assert (U : forall x o, mine x -> fgood_obs o -> mine (acell_upd x o)) by (intros; apply mine_upd; assumption).
    destruct m as [m|m|s i|p]; cbn [amap_update].
    - destruct (plain_update acell_upd m c a) as [m1| | |] eqn:E; try discriminate. cbn [bind]. intros X. apply Ok_inj in X. rewrite <- X. exact (pinv_update _ _ _ U _ _ _ _ I H E).
    - destruct (unb_update acell_upd m c a) as [m1| | |] eqn:E; try discriminate. cbn [bind]. intros X. apply Ok_inj in X. rewrite <- X. exact (pinv_uupdate _ _ _ U _ _ _ _ I H E).
    - destruct (lstep _ acell_upd s _) as [m1| | |] eqn:E; try discriminate. cbn [bind]. intros X. apply Ok_inj in X. rewrite <- X. exact (lupdate_inv _ _ _ U _ _ _ _ _ _ I H E).
    - destruct (m3_write _ _ _ _ _ _ _ _) as [m1| | |] eqn:E; try discriminate. cbn [bind]. intros X. apply Ok_inj in X. rewrite <- X.
      refine (m3_write_inv mine proto grow impact _ mine_new _ _ _ _ _ _ I E). intros x Hx. apply mine_upd; assumption.
  Qed.
  Lemma ainv_get m c v : ainv m -> amap_get m c = Ok v -> mine v.
  Proof using Type.
    intros I. destruct m as [m|m|s i|p]; cbn [amap_get].
    - exact (pinv_get _ _ _ _ I).
    - exact (pinv_uget _ _ _ _ I).
    - exact (lread_inv _ _ _ _ _ _ I).
    - destruct (nth_error _ _) as [l|] eqn:N; try discriminate. intros X. apply Ok_inj in X. rewrite <- X. exact (Forall_in _ _ _ I (nth_error_In _ _ N) c).
  Qed.
  Lemma ainv_new k w h m : new_amap proto k w h = Ok m -> ainv m.
  Proof using Hproto.
    assert (Pg := mine_new). unfold new_amap. destruct k.
    1,2: intros X; apply Ok_inj in X; rewrite <- X; apply pinv_new, Pg.
    all: destruct (lstep _ _ _ _) as [s| | |] eqn:E; try discriminate; cbn [bind]; intros X; apply Ok_inj in X; rewrite <- X;
      refine (lcreate_inv acell_upd mine _ _ _ _ _ _ _ _ Pg E); constructor.
  Qed.
  Lemma ainv_rescalable w h s m : new_rescalable proto infinity w h s = Ok m -> ainv m.
  Proof using Hproto.
    unfold new_rescalable. destruct (pyramid_new _ _ _ _ _) as [p| | |] eqn:E; try discriminate. cbn [bind]. intros X. apply Ok_inj in X. rewrite <- X.
    exact (pyramid_new_inv mine proto infinity mine_new _ _ _ _ E).
  Qed.
End AInv.
