(** Bag playback. *)
From Coq Require Import List Bool Lia Arith.
From Verif.Base Require Import Outcome.
From Verif.Model Require Import BagTopic.
From Verif.Spec Require Import BagSpec.
Import ListNotations.

Section Bag.
  Context {msg tf transform cache : Type}.
  Variable set_transform : cache -> tf -> cache.
  Variable lookup : cache -> msg -> answer transform.
  Variable skip : tf -> bool.
  Local Notation known := (known set_transform skip).
  Local Notation extract_loop := (extract_loop set_transform lookup skip).

  Lemma known_app (c : cache) (a b : list (entry msg tf)) : known c (a ++ b) = known (known c a) b.
  Proof. unfold BagSpec.known, transforms. now rewrite flat_map_app, filter_app, fold_left_app. Qed.
  Lemma messages_app (a b : list (entry msg tf)) : messages (a ++ b) = messages a ++ messages b.
  Proof. apply flat_map_app. Qed.
  Lemma take_spec (e : entry msg tf) c q : take_entry set_transform skip e c q = (known c [e], q ++ messages [e]).
  Proof.
    destruct e as [m|ts]; cbn [take_entry messages flat_map]; unfold BagSpec.known, transforms; cbn [flat_map]; rewrite ?app_nil_r; [reflexivity|]. f_equal.
    revert c. induction ts as [|t ts IH]; intros c; cbn [fold_left filter]; [reflexivity|]. destruct (skip t); cbn [negb fold_left]; apply IH.
  Qed.
  (* dropped while reading [es1] from [c] with queue [q] *)
  Definition dropped_past (es1 : list (entry msg tf)) (c : cache) (q : list msg) (d : msg) : Prop :=
    exists p, prefix p es1 /\ In d (q ++ messages p) /\ lookup (known c p) d = IntoPast.
  Lemma extract_spec (es : list (entry msg tf)) : forall c q r b, extract_loop es c q = Ok (r, b) ->
    exists es1 ds, es = es1 ++ rest b /\ tf_cache b = known c es1 /\ Forall (dropped_past es1 c q) ds /\
    match r with
    | Some (m, t) => q ++ messages es1 = ds ++ m :: msg_cache b /\ lookup (tf_cache b) m = Found t
    | None => rest b = [] /\ q ++ messages es1 = ds ++ msg_cache b /\
        ((exists d ds', ds = ds' ++ [d] /\ lookup (tf_cache b) d = IntoPast) \/ msg_cache b = [] \/
         exists m q', msg_cache b = m :: q' /\ (lookup (tf_cache b) m = IntoFuture \/ lookup (tf_cache b) m = Extrapolation))
    end.
  Proof.
    induction es as [|e es IH]; intros c q r b E; cbn [BagTopic.extract_loop] in E.
    - apply bind_Ok_inv in E as ([r' q'] & E1 & E). injection E as -> <-. cbn [rest tf_cache msg_cache]. unfold has_synced_msg in E1.
      destruct q as [|m q]; [injection E1 as <- <-; exists [], []; repeat split; auto|].
      destruct (lookup c m) as [t| | | |] eqn:L; try discriminate; injection E1 as <- <-.
      + exists [], []. cbn. rewrite app_nil_r. repeat split; auto.
      + exists [], []. cbn. rewrite app_nil_r. repeat split; auto. right. right. exists m, q. auto.
      + exists [], [m]. cbn. rewrite app_nil_r. split; [reflexivity|]. split; [reflexivity|]. split; [constructor; [|constructor]; exists []; split; [now exists []|]; split; [now left|exact L]|]. repeat split; auto. left. exists m, []. auto.
      + exists [], []. cbn. rewrite app_nil_r. repeat split; auto. right. right. exists m, q. auto.
    - rewrite take_spec in E. apply bind_Ok_inv in E as ([r' q'] & E1 & E). destruct r' as [[m t]|].
      + injection E as <- <-. cbn [rest tf_cache msg_cache]. exists [e], []. split; [reflexivity|]. split; [reflexivity|]. split; [constructor|]. cbn [app].
        unfold has_synced_msg in E1. destruct (q ++ messages [e]) as [|x y]; [discriminate|]. destruct (lookup (known c [e]) x) eqn:L; try discriminate. injection E1 as <- <- <-. auto.
      + destruct (IH _ _ _ _ E) as (es1 & ds & -> & Ec & F & R).
        assert (Q : exists ds0, q ++ messages [e] = ds0 ++ q' /\ Forall (dropped_past [e] c q) ds0).
        { unfold has_synced_msg in E1. destruct (q ++ messages [e]) as [|x y] eqn:EQ; [injection E1 as <-; exists []; auto|].
          destruct (lookup (known c [e]) x) eqn:L; try discriminate; injection E1 as <-; [exists []; auto| |exists []; auto].
          exists [x]. split; [reflexivity|]. constructor; [|constructor]. exists [e]. split; [now exists []|]. split; [rewrite EQ; now left|exact L]. }
        destruct Q as (ds0 & EQ & F0). exists (e :: es1), (ds0 ++ ds). split; [reflexivity|]. split; [rewrite Ec; symmetry; apply (known_app c [e])|].
        assert (EM : q ++ messages (e :: es1) = ds0 ++ q' ++ messages es1) by (change (e :: es1) with ([e] ++ es1); rewrite messages_app, app_assoc, EQ, <- app_assoc; reflexivity).
        split.
        { apply Forall_app. split.
          - revert F0. apply Forall_impl. intros d (p & (s & Hp) & H). exists p. split; [|exact H]. exists (s ++ es1). rewrite app_assoc, <- Hp. reflexivity.
          - revert F. apply Forall_impl. intros d (p & (s & Hp) & I & L). exists (e :: p). split; [exists s; cbn; now rewrite Hp|]. split; [|change (e :: p) with ([e] ++ p); now rewrite known_app].
            change (e :: p) with ([e] ++ p). rewrite messages_app, app_assoc, EQ, <- app_assoc. apply in_app_iff. now right. }
        rewrite EM. destruct r as [[m t]|].
        * destruct R as [-> R]. rewrite <- app_assoc. auto.
        * destruct R as (R1 & -> & R2). rewrite <- app_assoc. repeat split; auto. destruct R2 as [(d & ds' & -> & L)|R2]; [left; exists d, (ds0 ++ ds'); rewrite app_assoc; auto|right; exact R2].
  Qed.

  Lemma fates_drops ds : forall ms (xs : list (msg * transform)) ds', fates ms xs ds' -> fates (ds ++ ms) xs (ds ++ ds').
  Proof. induction ds as [|d ds IH]; intros ms xs ds' H; cbn [app]; [exact H|]. constructor. now apply IH. Qed.
  Lemma fates_app (a : list msg) (x : list (msg * transform)) d b y e : fates a x d -> fates b y e -> fates (a ++ b) (x ++ y) (d ++ e).
  Proof. induction 1; cbn [app]; intros; auto; constructor; auto. Qed.

  (** the whole playback, from any state *)
  Lemma playback_spec fuel : forall b xs b', playback set_transform lookup skip fuel b = Ok (xs, b') ->
    rest b' = [] /\ tf_cache b' = known (tf_cache b) (rest b) /\
    exists ms ds, msg_cache b ++ messages (rest b) = ms ++ msg_cache b' /\ fates ms xs ds /\
      (forall m t, In (m, t) xs -> exists p, prefix p (rest b) /\ In m (msg_cache b ++ messages p) /\ lookup (known (tf_cache b) p) m = Found t) /\
      (forall d, In d ds -> dropped_past (rest b) (tf_cache b) (msg_cache b) d) /\
      ((exists d, In d ds /\ lookup (tf_cache b') d = IntoPast) \/ msg_cache b' = [] \/
         exists m q', msg_cache b' = m :: q' /\ (lookup (tf_cache b') m = IntoFuture \/ lookup (tf_cache b') m = Extrapolation)).
  Proof.
    induction fuel as [|fuel IH]; intros b xs b' E; cbn [playback] in E; [discriminate|]. apply bind_Ok_inv in E as ([r b1] & E1 & E). unfold extract_next_msg in E1.
    destruct (extract_spec _ _ _ _ _ E1) as (es1 & ds & Ees & Ec & F & R). destruct r as [[m t]|].
    - apply bind_Ok_inv in E as ([ys b2] & E2 & E). injection E as <- <-. destruct R as [R1 R2]. destruct (IH _ _ _ E2) as (A1 & A2 & ms & ds' & A3 & A4 & A5 & A6 & A7).
      assert (Kn : known (tf_cache b1) (rest b1) = known (tf_cache b) (rest b)) by (rewrite Ec, Ees; symmetry; apply known_app).
      split; [exact A1|]. split; [now rewrite A2, Kn|]. exists (ds ++ m :: ms), (ds ++ ds').
      assert (EQ : msg_cache b ++ messages (rest b) = ds ++ m :: (msg_cache b1 ++ messages (rest b1))) by (rewrite Ees at 1; rewrite messages_app, app_assoc, R1, <- app_assoc; reflexivity).
      split; [rewrite EQ, A3, <- app_assoc; reflexivity|]. split; [apply fates_drops; now constructor|].
      assert (Lift : forall p d, prefix p (rest b1) -> In d (msg_cache b1 ++ messages p) -> prefix (es1 ++ p) (rest b) /\ In d (msg_cache b ++ messages (es1 ++ p)) /\ known (tf_cache b) (es1 ++ p) = known (tf_cache b1) p).
      { intros p d (s & Hs) I. split; [exists s; now rewrite Ees at 1; rewrite Hs, <- app_assoc|]. split; [|now rewrite known_app, <- Ec]. rewrite messages_app, app_assoc, R1, <- app_assoc. apply in_app_iff. right. now right. }
      split; [|split].
      + intros m' t' [X|X].
        * injection X as <- <-. exists es1. split; [exists (rest b1); exact Ees|]. split; [rewrite R1; apply in_app_iff; right; now left|now rewrite <- Ec].
        * destruct (A5 m' t' X) as (p & P1 & P2 & P3). destruct (Lift p m' P1 P2) as (L1 & L2 & L3). exists (es1 ++ p). split; [exact L1|]. split; [exact L2|]. now rewrite L3.
      + intros d X. apply in_app_iff in X as [X|X].
        * rewrite Forall_forall in F. destruct (F d X) as (p & (s & Hs) & P2 & P3). exists p. split; [exists (s ++ rest b1); now rewrite Ees at 1; rewrite Hs, <- app_assoc|]. auto.
        * destruct (A6 d X) as (p & P1 & P2 & P3). destruct (Lift p d P1 P2) as (L1 & L2 & L3). exists (es1 ++ p). split; [exact L1|]. split; [exact L2|]. now rewrite L3.
      + destruct A7 as [(d & X & L)|A7]; [left; exists d; split; [apply in_app_iff; now right|exact L]|right; exact A7].
    - injection E as <- <-. destruct R as (R1 & R2 & R3). rewrite R1, app_nil_r in Ees. subst es1. split; [exact R1|]. split; [exact Ec|]. exists ds, ds.
      split; [exact R2|]. split; [rewrite <- (app_nil_r ds); apply fates_drops; constructor|]. split; [intros ? ? []|]. split.
      + rewrite Forall_forall in F. exact F.
      + destruct R3 as [(d & ds' & -> & L)|R3]; [left; exists d; split; [apply in_app_iff; right; now left|exact L]|right; exact R3].
  Qed.

  (** enough fuel: one more than the messages *)
  Lemma extract_total (es : list (entry msg tf)) : forall c q, (forall p m, prefix p es -> In m (q ++ messages p) -> lookup (known c p) m <> Unknown) ->
    exists r b, extract_loop es c q = Ok (r, b).
  Proof.
    induction es as [|e es IH]; intros c q H; cbn [BagTopic.extract_loop].
    - unfold has_synced_msg. destruct q as [|m q]; [cbn; eauto|]. specialize (H [] m ltac:(now exists []) ltac:(now left)). change (known c []) with c in H. destruct (lookup c m); cbn [bind]; try (now eauto).
    - rewrite take_spec. assert (S : exists r q', has_synced_msg lookup (known c [e]) (q ++ messages [e]) = Ok (r, q') /\ (r = None -> forall x, In x q' -> In x (q ++ messages [e]))).
      { unfold has_synced_msg. destruct (q ++ messages [e]) as [|m q0] eqn:EQ; [exists None, []; auto|]. specialize (H [e] m ltac:(now exists es) ltac:(rewrite EQ; now left)).
        destruct (lookup (known c [e]) m) eqn:L; try congruence; eexists; eexists; (split; [reflexivity|]); auto; intros E; try discriminate. intros x I. now right. }
      destruct S as (r & q' & -> & S). cbn [bind]. destruct r as [x|]; [eauto|]. apply IH. intros p m (s & Hs) I. rewrite <- known_app. apply H; [exists s; cbn; now rewrite Hs|].
      change (e :: p) with ([e] ++ p). rewrite messages_app, app_assoc. apply in_app_iff. apply in_app_iff in I as [I|I]; [left; now apply S|now right].
  Qed.
  Lemma playback_total fuel : forall b, (forall p m, prefix p (rest b) -> In m (msg_cache b ++ messages p) -> lookup (known (tf_cache b) p) m <> Unknown) ->
    (length (msg_cache b ++ messages (rest b)) < fuel)%nat -> exists xs b', playback set_transform lookup skip fuel b = Ok (xs, b').
  Proof.
    induction fuel as [|fuel IH]; intros b H L; [lia|]. cbn [playback]. unfold extract_next_msg. destruct (extract_total (rest b) (tf_cache b) (msg_cache b) H) as (r & b1 & E). rewrite E. cbn [bind].
    destruct r as [x|]; [|eauto]. destruct (extract_spec _ _ _ _ _ E) as (es1 & ds & Ees & Ec & F & R). destruct x as [m t]. destruct R as [R1 R2].
    assert (EQ : msg_cache b ++ messages (rest b) = ds ++ m :: (msg_cache b1 ++ messages (rest b1))) by (rewrite Ees at 1; rewrite messages_app, app_assoc, R1, <- app_assoc; reflexivity).
    destruct (IH b1) as (xs & b' & E').
    - intros p x (s & Hs) I. rewrite Ec, <- known_app. apply H; [exists s; rewrite Ees at 1; now rewrite Hs, <- app_assoc|]. rewrite messages_app, app_assoc, R1, <- app_assoc. apply in_app_iff. right. now right.
    - rewrite EQ, app_length in L. cbn [length] in L. lia.
    - rewrite E'. cbn [bind]. eauto.
  Qed.
  Lemma fates_no_drop ms (xs : list (msg * transform)) : fates ms xs [] -> map fst xs = ms.
  Proof. remember [] as ds. induction 1; cbn; auto; [now rewrite IHfates|discriminate]. Qed.
  Lemma fates_in ms (xs : list (msg * transform)) ds : fates ms xs ds -> forall m, In m ms -> In m (map fst xs) \/ In m ds.
  Proof. induction 1 as [|m t ms xs ds _ IH|m ms xs ds _ IH]; cbn; [intros x []|intros x [->|I]; auto; destruct (IH x I); auto..]. Qed.
End Bag.
