(** Scan matching moved by a whole number of cells. *)
From Coq Require Import ZArith List Bool Lia Reals Lra.
From Flocq Require Import Core.
From Verif.Base Require Import Outcome Num.
From Verif.Model Require Import MathUtils Geometry Grid Cells Sensor ScanAdder Matchers World Config WholeSlam Spe WholeMatcher.
From Verif.Spec Require Import ShiftSpec.
From Verif.Proofs Require Import ShiftProofs.
Import ListNotations.
Local Open Scope Z_scope.
Local Open Scope outcome_scope.

Section ShiftMatch.
  Variables (scale : R) (s : coord).
  Hypothesis Hs : (0 < scale)%R.
  Notation mc := (moved_coord s). Notation mp := (moved_point scale s).
  Notation mpose := (moved_pose scale s). Notation mcell := (moved_cell scale s). Notation mrect := (moved_rect scale s).

  Section Score.
    Variables (impact : acell R -> outcome R) (m1 m2 : omap R (acell R)) (f1 f2 : coord -> acell R).
    Hypotheses (Hi : forall c c', mcell c c' -> impact c = impact c') (S1 : om_scale m1 = scale) (S2 : om_scale m2 = scale)
      (C1 : forall c, om_cell m1 c = Ok (f1 c)) (C2 : forall c, om_cell m2 c = Ok (f2 c))
      (U1 : forall c, om_has m1 c = true) (U2 : forall c, om_has m2 c = true) (Hm : moved_map scale s f1 f2).
    Lemma impact_shift c : cell_impact impact m2 (mc c) = cell_impact impact m1 c.
    Proof using Hi C1 C2 Hm. unfold cell_impact. rewrite C1, C2. cbn [bind]. rewrite (Hi _ _ (Hm c)). reflexivity. Qed.
    Lemma obstacle_shift p v v' : obstacle_pe impact m1 p = Ok v -> obstacle_pe impact m2 (mp p) = Ok v' -> v' = v.
    Proof using Hi C1 C2 Hm S1 S2 Hs.
      unfold obstacle_pe. rewrite S1, S2. intros A B. apply bind_Ok_inv in A. destruct A as (c & A0 & A). apply bind_Ok_inv in B. destruct B as (c' & B0 & B).
      assert (E := w2cell_shift _ _ Hs _ _ _ A0 B0). subst c'. rewrite impact_shift in B. congruence.
    Qed.
    Definition mras (r : raster) : raster := mkRaster (mc (r_lb r)) (mc (r_rt r)) (r_x r + cx s) (r_y r + cy s).
    Lemma ras_has r : raster_has_next (mras r) = raster_has_next r.
    Proof using Type.
      unfold raster_has_next, mras, moved_coord, cx, cy; cbn [r_lb r_rt r_x r_y fst snd]. f_equal; apply eq_true_iff_eq; rewrite !Z.leb_le; lia.
    Qed.
    Lemma ras_next r : raster_next (mras r) = (mc (fst (raster_next r)), mras (snd (raster_next r))).
    Proof using Type.
      unfold raster_next, mras. cbn [r_lb r_rt r_x r_y].
      replace (cy (mc (r_rt r)) <? r_y r + cy s + 1) with (cy (r_rt r) <? r_y r + 1) by (apply eq_true_iff_eq; rewrite !Z.ltb_lt; unfold moved_coord, cy; cbn; lia).
      destruct (_ <? _); cbn [fst snd r_lb r_rt r_x r_y]; unfold moved_coord, cx, cy; cbn [fst snd r_x r_y].
      + replace (r_x r + fst s + 1) with (r_x r + 1 + fst s) by lia. reflexivity.
      + replace (r_y r + snd s + 1) with (r_y r + 1 + snd s) by lia. reflexivity.
    Qed.
    Lemma ras_vec : forall fuel r, raster_to_vector fuel (mras r) = (l <- raster_to_vector fuel r ;; Ok (map mc l)).
    Proof using Type.
      induction fuel as [|fuel IH]; intros r; cbn [raster_to_vector]; rewrite ras_has; destruct (raster_has_next r); try reflexivity.
      rewrite ras_next. destruct (raster_next r) as [c r']. cbn [fst snd]. rewrite IH. destruct (raster_to_vector fuel r'); reflexivity.
    Qed.
    Lemma area_shift r : rect_area (mrect r) = rect_area r.
    Proof using Type.
      unfold rect_area, vside_len, hside_len, moved_rect, moved_x, moved_y; cbn [top bot left right dsub dmul ROps]. f_equal; ring.
    Qed.
    Lemma cells_shift fuel a l l' : area_cells m1 fuel a = Ok l -> area_cells m2 fuel (mrect a) = Ok l' -> l' = map mc l.
    Proof using Hs S1 S2.
      unfold area_cells. intros A B. apply bind_Ok_inv in A. destruct A as (r & A0 & A). apply bind_Ok_inv in B. destruct B as (r' & B0 & B).
      enough (E : r' = mras r). { subst r'. rewrite ras_vec, A in B. cbn [bind] in B. congruence. }
      clear A B. revert A0 B0. unfold raster_rect. cbv zeta. rewrite area_shift, S1, S2. cbn [dispinf ROps negb]. rewrite andb_true_r.
      destruct (deq (rect_area a) (dofZ 0)); cbn [negb]; intros A B.
      - apply bind_Ok_inv in A. destruct A as (c & A0 & A). apply bind_Ok_inv in B. destruct B as (c' & B0 & B).
        change (left (mrect a), bot (mrect a)) with (mp (left a, bot a)) in B0. assert (E := w2cell_shift _ _ Hs _ _ _ A0 B0). subst c'.
        injection A as A. injection B as B. rewrite <- A, <- B. reflexivity.
      - apply bind_Ok_inv in A. destruct A as (c & A0 & A). apply bind_Ok_inv in A. destruct A as (d & A1 & A).
        apply bind_Ok_inv in B. destruct B as (c' & B0 & B). apply bind_Ok_inv in B. destruct B as (d' & B1 & B).
        replace (dadd (left (mrect a)) (dofZ 0), dadd (bot (mrect a)) (dofZ 0)) with (mp (dadd (left a) (dofZ 0), dadd (bot a) (dofZ 0))) in B0
          by (unfold moved_point, moved_rect, moved_x, moved_y, ptx, pty; cbn; f_equal; ring).
        replace (dsub (right (mrect a)) (dofZ 0), dsub (top (mrect a)) (dofZ 0)) with (mp (dsub (right a) (dofZ 0), dsub (top a) (dofZ 0))) in B1
          by (unfold moved_point, moved_rect, moved_x, moved_y, ptx, pty; cbn; f_equal; ring).
        assert (E := w2cell_shift _ _ Hs _ _ _ A0 B0). subst c'. assert (E := w2cell_shift _ _ Hs _ _ _ A1 B1). subst d'.
        injection A as A. injection B as B. rewrite <- A, <- B. reflexivity.
    Qed.
    Lemma max_shift : forall l b, max_loop impact m2 (map mc l) b = max_loop impact m1 l b.
    Proof using Hi C1 C2 Hm.
      induction l as [|c l IH]; intros b; [reflexivity|]. cbn [map max_loop]. rewrite impact_shift. destruct (cell_impact impact m1 c); try reflexivity. cbn [bind]. apply IH.
    Qed.
    Lemma mean_shift : forall l t n, mean_loop impact m2 (map mc l) t n = mean_loop impact m1 l t n.
    Proof using Hi C1 C2 Hm.
      induction l as [|c l IH]; intros t n; [reflexivity|]. cbn [map mean_loop]. rewrite impact_shift. destruct (cell_impact impact m1 c); try reflexivity. cbn [bind]. apply IH.
    Qed.
    Lemma observation_shift kind bound p a v v' : kind <> OverlapOope ->
      observation_prob impact kind bound m1 p a = Ok v -> observation_prob impact kind bound m2 (mp p) (mrect a) = Ok v' -> v' = v.
    Proof using Hi C1 C2 Hm S1 S2 Hs.
      intros Hk. unfold observation_prob. destruct kind; [apply obstacle_shift| | |congruence]; unfold max_pe, mean_pe; intros A B.
      - apply bind_Ok_inv in A. destruct A as (l & A0 & A). apply bind_Ok_inv in B. destruct B as (l' & B0 & B).
        assert (E := cells_shift _ _ _ _ A0 B0). subst l'. rewrite max_shift in B. congruence.
      - apply bind_Ok_inv in A. destruct A as (l & A0 & A). apply bind_Ok_inv in B. destruct B as (l' & B0 & B).
        assert (E := cells_shift _ _ _ _ A0 B0). subst l'. rewrite mean_shift in B. congruence.
    Qed.
    Lemma center_shift a p r r' : move_center a p = Ok r -> move_center a (mp p) = Ok r' -> r' = mrect r.
    Proof using Type.
      unfold move_center, mk_rect. cbv zeta. destruct (_ && _); [|discriminate]. intros A. injection A as A. destruct (_ && _); [|discriminate]. intros B. injection B as B.
      rewrite <- A, <- B. unfold moved_rect, moved_x, moved_y; cbn [bot top left right]. unfold moved_point, moved_x, moved_y, ptx, pty; cbn [fst snd dadd dsub ROps]. f_equal; ring.
    Qed.
    Variables (dcos dsin : R -> R) (datan2 : R -> R -> R) (kind : oope_kind) (bound : nat) (skip : Z) (range : R) (weight : list (scan_point R) -> Z -> outcome R) (area : rect R).
    Hypothesis Hk : kind <> OverlapOope.
    Lemma point_shift p tp sp v v' : point_prob dcos dsin datan2 (observation_prob impact kind bound m1) p tp false area sp = Ok v ->
      point_prob dcos dsin datan2 (observation_prob impact kind bound m2) (mp p) tp false area sp = Ok v' -> v' = v.
    Proof using Hi C1 C2 Hm S1 S2 Hs Hk.
      unfold point_prob. rewrite (origin_shift scale s). intros A B. apply bind_Ok_inv in A. destruct A as (o & A0 & A). rewrite A0 in B. cbn [bind] in B.
      apply bind_Ok_inv in A. destruct A as (r & A1 & A). apply bind_Ok_inv in B. destruct B as (r' & B1 & B).
      assert (E := center_shift _ _ _ _ A1 B1). subst r'. exact (observation_shift _ _ _ _ _ _ Hk A B).
    Qed.
    Lemma est_loop_shift (w : Z -> outcome R) p tp : forall pts i t k r r',
      estimate_loop w (point_prob dcos dsin datan2 (observation_prob impact kind bound m1) p tp false area) i pts t k = Ok r ->
      estimate_loop w (point_prob dcos dsin datan2 (observation_prob impact kind bound m2) (mp p) tp false area) i pts t k = Ok r' -> r' = r.
    Proof using Hi C1 C2 Hm S1 S2 Hs Hk.
      induction pts as [|sp pts IH]; intros i t k r r'; cbn [estimate_loop]; [congruence|]. intros A B.
      apply bind_Ok_inv in A. destruct A as (v & A0 & A). apply bind_Ok_inv in A. destruct A as (x & A1 & A).
      apply bind_Ok_inv in B. destruct B as (v' & B0 & B). rewrite A1 in B. cbn [bind] in B.
      assert (E := point_shift _ _ _ _ _ A0 B0). subst v'. exact (IH _ _ _ _ _ A B).
    Qed.
    Lemma estimate_shift sc pts p v v' :
      pose_estimate dcos dsin datan2 impact kind bound weight area m1 sc pts p = Ok v ->
      pose_estimate dcos dsin datan2 impact kind bound weight area m2 sc pts (mpose p) = Ok v' -> v' = v.
    Proof using Hi C1 C2 Hm S1 S2 Hs Hk.
      unfold pose_estimate, estimate_scan. intros A B. apply bind_Ok_inv in A. destruct A as ([t w] & A0 & A). apply bind_Ok_inv in B. destruct B as ([t' w'] & B0 & B).
      cbn [moved_pose pth] in B0. assert (E := est_loop_shift _ _ _ _ _ _ _ _ _ A0 B0). injection E as -> ->. congruence.
    Qed.
    Lemma filter_shift p tp : forall raw i l l', filter_loop datan2 m1 skip range p tp i raw = Ok l -> filter_loop datan2 m2 skip range (mp p) tp i raw = Ok l' -> l' = l.
    Proof using U1 U2.
      induction raw as [|sp raw IH]; intros i l l'; cbn [filter_loop]; [congruence|]. destruct (_ && _); [apply IH|]. rewrite (origin_shift scale s). intros A B.
      apply bind_Ok_inv in A. destruct A as (w & A0 & A). rewrite A0 in B. cbn [bind] in B.
      apply bind_Ok_inv in A. destruct A as (c & A1 & A). apply bind_Ok_inv in A. destruct A as (r & A2 & A).
      apply bind_Ok_inv in B. destruct B as (c' & B1 & B). apply bind_Ok_inv in B. destruct B as (r' & B2 & B).
      assert (E := IH _ _ _ A2 B2). subst r'. unfold should_skip in A, B. rewrite U1 in A. rewrite U2 in B. congruence.
    Qed.
  End Score.

  (** ** enumerators *)
  Definition moving {E} (en : enumerator R E) (Re : E -> E -> Prop) : Prop :=
    forall e e', Re e e' ->
      e_has_next en e' = e_has_next en e /\ Re (e_reset en e) (e_reset en e') /\ (forall ok, Re (e_feedback en e ok) (e_feedback en e' ok)) /\
      forall b, fst (e_next en e' (mpose b)) = mpose (fst (e_next en e b)) /\ Re (snd (e_next en e b)) (snd (e_next en e' (mpose b))).

  Section Enum.
    Context {E : Type}.
    Variables (en : enumerator R E) (Re : E -> E -> Prop) (obs : observers).
    Hypothesis He : moving en Re.
    Lemma pe_tested score : forall fuel e b pr t o e' b' pr' t' o', pe_loop en score obs fuel e b pr t o = Ok (e', b', pr', t', o') -> exists l, t' = t ++ l.
    Proof using Type.
      induction fuel as [|fuel IH]; intros e b pr t o e' b' pr' t' o'; cbn [pe_loop]; destruct (e_has_next en e); try discriminate;
        try (intros X; exists []; rewrite app_nil_r; congruence).
      destruct (e_next en e b) as [p e1]. destruct (dlt pr (score p)); intros X; apply IH in X; destruct X as [l ->]; exists ([p] ++ l); rewrite app_assoc; reflexivity.
    Qed.
    Variables (score1 score2 : pose R -> R).
    Lemma pe_shift : forall fuel e1 e2 b pr t o1 o2 e1' e2' b1 b2 p1 p2 t1 t2 q1 q2, Re e1 e2 ->
      pe_loop en score1 obs fuel e1 b pr t o1 = Ok (e1', b1, p1, t1, q1) ->
      pe_loop en score2 obs fuel e2 (mpose b) pr (map mpose t) o2 = Ok (e2', b2, p2, t2, q2) ->
      (forall p, In p t1 -> In (mpose p) t2 -> score2 (mpose p) = score1 p) ->
      b2 = mpose b1 /\ p2 = p1 /\ t2 = map mpose t1 /\ Re e1' e2'.
    Proof using He.
      induction fuel as [|fuel IH]; intros e1 e2 b pr t o1 o2 e1' e2' b1 b2 p1 p2 t1 t2 q1 q2 HR; cbn [pe_loop]; destruct (He _ _ HR) as (N & Rs & F & X); rewrite N;
        (destruct (e_has_next en e1); [|intros A B; inversion A; inversion B; subst; auto]); try discriminate.
      specialize (X b). destruct (e_next en e1 b) as [p e3]. destruct (e_next en e2 (mpose b)) as [p' e4]. cbn [fst snd] in X. destruct X as [-> R3].
      intros A B HS.
      assert (I1 : In p t1). { destruct (dlt pr (score1 p)); apply pe_tested in A; destruct A as [l ->]; apply in_or_app; left; apply in_or_app; right; now left. }
      assert (I2 : In (mpose p) t2). { destruct (dlt pr (score2 (mpose p))); apply pe_tested in B; destruct B as [l ->]; apply in_or_app; left; apply in_or_app; right; now left. }
      rewrite (HS p I1 I2) in B. replace (map mpose t ++ [mpose p]) with (map mpose (t ++ [p])) in B by (rewrite map_app; reflexivity).
      destruct (He _ _ R3) as (_ & _ & F3 & _).
      destruct (dlt pr (score1 p)); exact (IH _ _ _ _ _ _ _ _ _ _ _ _ _ _ _ _ _ (F3 _) A B HS).
    Qed.
    Lemma pose_sub_shift a b : pose_sub (mpose a) (mpose b) = pose_sub a b.
    Proof using Type. unfold pose_sub, moved_pose, moved_x, moved_y; cbn [px py pth dsub ROps]. f_equal; ring. Qed.
    Lemma process_shift fuel e1 e2 init r1 r2 : Re e1 e2 ->
      process_scan en score1 obs fuel e1 init = Ok r1 -> process_scan en score2 obs fuel e2 (mpose init) = Ok r2 ->
      (forall p, In p (mr_tested r1) -> In (mpose p) (mr_tested r2) -> score2 (mpose p) = score1 p) ->
      mr_tested r2 = map mpose (mr_tested r1) /\ mr_prob r2 = mr_prob r1 /\ mr_delta r2 = mr_delta r1 /\ mr_best r2 = mpose (mr_best r1) /\ Re (mr_enum r1) (mr_enum r2).
    Proof using He.
      intros HR. unfold process_scan. cbv zeta. intros A B HS.
      apply bind_Ok_inv in A. destruct A as ([[[[e1' b1] p1] t1] q1] & A0 & A). apply bind_Ok_inv in B. destruct B as ([[[[e2' b2] p2] t2] q2] & B0 & B).
      injection A as A. injection B as B. subst r1 r2. cbn [mr_tested mr_prob mr_delta mr_best mr_enum] in *.
      destruct (He _ _ HR) as (_ & HR0 & _ & _).
      assert (S0 : score2 (mpose init) = score1 init).
      { apply HS; [apply pe_tested in A0; destruct A0 as [l ->]; now left|apply pe_tested in B0; destruct B0 as [l ->]; now left]. }
      rewrite S0 in B0. destruct (pe_shift _ _ _ _ _ [init] _ _ _ _ _ _ _ _ _ _ _ _ HR0 A0 B0 HS) as (E1 & E2 & E3 & E4). subst.
      rewrite pose_sub_shift. auto.
    Qed.
  End Enum.

  Section Process.
    Context {E : Type}.
    Variables (en : enumerator R E) (Re : E -> E -> Prop) (obs : observers).
    Hypothesis He : moving en Re.
    Variables (impact : acell R -> outcome R) (m1 m2 : omap R (acell R)) (f1 f2 : coord -> acell R).
    Hypotheses (Hi : forall c c', mcell c c' -> impact c = impact c') (S1 : om_scale m1 = scale) (S2 : om_scale m2 = scale)
      (C1 : forall c, om_cell m1 c = Ok (f1 c)) (C2 : forall c, om_cell m2 c = Ok (f2 c))
      (U1 : forall c, om_has m1 c = true) (U2 : forall c, om_has m2 c = true) (Hm : moved_map scale s f1 f2).
    Lemma matcher_shift dcos dsin datan2 kind bound skip range weight area nan fuel e1 e2 sc p q1 d1 e1' q2 d2 e2' : kind <> OverlapOope -> Re e1 e2 ->
      matcher_process dcos dsin datan2 impact kind bound skip range weight area nan en obs fuel e1 sc p m1 = Ok (q1, d1, e1') ->
      matcher_process dcos dsin datan2 impact kind bound skip range weight area nan en obs fuel e2 sc (mpose p) m2 = Ok (q2, d2, e2') ->
      q2 = q1 /\ d2 = d1 /\ Re e1' e2'.
    Proof using He Hi S1 S2 C1 C2 U1 U2 Hm Hs.
      intros Hk HR. unfold matcher_process. cbv zeta. intros A B.
      apply bind_Ok_inv in A. destruct A as (pts & A0 & A). apply bind_Ok_inv in B. destruct B as (pts' & B0 & B).
      unfold filter_scan in A0, B0. cbn [moved_pose pth] in B0.
      assert (X := filter_shift m1 m2 U1 U2 datan2 skip range _ _ _ _ _ _ A0 B0). subst pts'.
      apply bind_Ok_inv in A. destruct A as (r1 & A1 & A). apply bind_Ok_inv in B. destruct B as (r2 & B1 & B).
      destruct (forallb _ (mr_tested r1)) eqn:F1 in A; [|discriminate]. destruct (forallb _ (mr_tested r2)) eqn:F2 in B; [|discriminate].
      rewrite forallb_forall in F1. rewrite forallb_forall in F2.
      destruct (process_shift en Re obs He _ _ _ _ _ _ _ _ HR A1 B1) as (_ & E2 & E3 & _ & E5).
      - intros x I1 I2. specialize (F1 x I1). specialize (F2 _ I2). cbv beta in F1, F2.
        destruct (pose_estimate _ _ _ _ _ _ _ _ m1 sc pts x) as [v1| | |] eqn:P1; try discriminate.
        destruct (pose_estimate _ _ _ _ _ _ _ _ m2 sc pts (mpose x)) as [v2| | |] eqn:P2; try discriminate.
        assert (Y := estimate_shift impact m1 m2 f1 f2 Hi S1 S2 C1 C2 Hm _ _ _ _ _ _ _ Hk _ _ _ _ _ P1 P2). subst v2. reflexivity.
      - injection A as <- <- <-. injection B as <- <- <-. auto.
    Qed.
  End Process.

  (** the enumerators *)
  Definition mbase (a b : option (pose R)) : Prop := b = match a with Some p => Some (mpose p) | None => None end.
  Definition bf_rel (a b : bf_state R) : Prop := mbase (bf_base a) (bf_base b) /\ bf_x b = bf_x a /\ bf_y b = bf_y a /\ bf_t b = bf_t a.
  Lemma bf_moving cfg : moving (bf_enum cfg) bf_rel.
  Proof using Type.
    intros [ba x y t] [bb x' y' t'] (H & H1 & H2 & H3). cbn [bf_base bf_x bf_y bf_t] in *. unfold mbase in H. subst. cbn [bf_enum e_has_next e_reset e_feedback e_next].
    split; [reflexivity|]. split; [repeat split; reflexivity|]. split.
    - intros ok. unfold bf_feedback. cbn [bf_base bf_x bf_y bf_t]. destruct (dlt _ _); [repeat split; reflexivity|]. destruct (dlt _ _); repeat split; reflexivity.
    - intros b. unfold bf_next. cbn [bf_base bf_x bf_y bf_t fst snd]. split.
      + unfold moved_pose, moved_x, moved_y. destruct ba; cbn [px py pth dadd ROps]; f_equal; ring.
      + unfold bf_rel, mbase. cbn [bf_base bf_x bf_y bf_t]. destruct ba; repeat split; reflexivity.
  Qed.
  Definition d1_rel (a b : dist1d R) : Prop := b = mkD1 (d1_action a) (d1_tr a) (d1_rot a) (d1_sin a) (d1_cos a) (match d1_base a with Some p => Some (mpose p) | None => None end).
  Definition frl_rel (a b : frl R) : Prop :=
    d1_rel (fr_round a) (fr_round b) /\ b = mkFrl (fr_max a) (fr_base_tr a) (fr_base_rot a) (fr_failed a) (fr_tr a) (fr_rot a) (fr_round b) (fr_round_failed a).
  Lemma d1_next_shift a b p : d1_rel a b -> fst (d1_next b (mpose p)) = mpose (fst (d1_next a p)) /\ d1_rel (snd (d1_next a p)) (snd (d1_next b (mpose p))).
  Proof using Type.
    intros ->. unfold d1_next. cbn [d1_action d1_tr d1_rot d1_sin d1_cos d1_base fst snd]. split.
    - destruct (d1_base a); repeat match goal with |- context [if ?c then mkPose _ _ _ else _] => destruct c end;
        unfold moved_pose, moved_x, moved_y; cbn [px py pth dadd dmul ROps]; f_equal; ring.
    - unfold d1_rel. cbn [d1_action d1_tr d1_rot d1_sin d1_cos d1_base]. destruct (d1_base a); reflexivity.
  Qed.
  Lemma frl_moving : moving (frl_enum (D := R)) frl_rel.
  Proof using Type.
    intros a b (H & E). rewrite E. cbn [frl_enum e_has_next e_reset e_feedback e_next]. split; [reflexivity|]. split; [split; reflexivity|].
    split; [intros ok; split; [exact H|reflexivity]|]. intros p. unfold frl_next. cbn [fr_round fr_round_failed fr_tr fr_rot fr_failed fr_max fr_base_tr fr_base_rot].
    replace (d1_has_next (fr_round b)) with (d1_has_next (fr_round a)) by (rewrite H; reflexivity).
    destruct (d1_has_next (fr_round a)).
    - cbn [fr_round fr_round_failed fr_tr fr_rot fr_failed fr_max fr_base_tr fr_base_rot]. destruct (d1_next_shift _ _ p H) as [X Y].
      destruct (d1_next (fr_round a) p) as [x r]. destruct (d1_next (fr_round b) (mpose p)) as [x' r']. cbn [fst snd] in *. split; [exact X|]. split; [exact Y|reflexivity].
    - cbn [fr_round fr_round_failed fr_tr fr_rot fr_failed fr_max fr_base_tr fr_base_rot].
      match goal with |- context [d1_next (new_round ?t ?r) p] => destruct (d1_next_shift (new_round t r) (new_round t r) p eq_refl) as [X Y];
        destruct (d1_next (new_round t r) p) as [x q]; destruct (d1_next (new_round t r) (mpose p)) as [x' q'] end.
      cbn [fst snd] in *. split; [exact X|]. split; [exact Y|reflexivity].
  Qed.
  Lemma gauss_moving {G} (sample : R -> R -> G -> pose R * G) : moving (gauss_enum sample) eq.
  Proof using Type.
    intros a b <-. cbn [gauss_enum e_has_next e_reset e_feedback e_next]. do 3 (split; [reflexivity|]). intros p. unfold gauss_next.
    destruct (sample _ _ _) as [d g]. cbn [fst snd]. split; [apply pose_add_shift|reflexivity].
  Qed.
End ShiftMatch.
