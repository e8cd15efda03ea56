(** Matching with scores that are not numbers. *)
From Coq Require Import Reals ZArith List Lia Lra Bool.
From Flocq Require Import Core IEEE754.BinarySingleNaN IEEE754.Binary IEEE754.Bits.
From Verif.Base Require Import Outcome Num F64Facts OrdLaws.
From Verif.Model Require Import MathUtils Geometry Grid PlainMap Sensor Spe Matchers M3Engine.
From Verif.Spec Require Import SpeSpec EmptyScanSpec.
From Verif.Proofs Require Import SpeProofs WorldProofs.
Import ListNotations.
Local Open Scope Z_scope.

Lemma F_nan_sub_l (x y : F64) : disnan x = true -> disnan (dsub x y) = true.
Proof. destruct x, y; cbn; try discriminate; reflexivity. Qed.
Lemma F_nan_sub_r (x y : F64) : disnan y = true -> disnan (dsub x y) = true.
Proof. destruct x, y; cbn; try discriminate; reflexivity. Qed.
Lemma F_nan_mul_l (x y : F64) : disnan x = true -> disnan (dmul x y) = true.
Proof. destruct x, y; cbn; try discriminate; reflexivity. Qed.
Lemma F_nan_mul_r (x y : F64) : disnan y = true -> disnan (dmul x y) = true.
Proof. destruct x, y; cbn; try discriminate; reflexivity. Qed.
Lemma F_nan_div_l (x y : F64) : disnan x = true -> disnan (ddiv x y) = true.
Proof. destruct x, y; cbn; try discriminate; reflexivity. Qed.
Lemma F_nan_abs (x : F64) : disnan x = true -> disnan (dabs x) = true.
Proof. destruct x; cbn; try discriminate; reflexivity. Qed.
Lemma F_nan_le (x y : F64) : disnan x = true -> dle x y = false.
Proof. destruct x, y; cbn; try discriminate; reflexivity. Qed.
Lemma F_nan_lt_l (x y : F64) : disnan x = true -> dlt x y = false.
Proof. intros H. apply lt_nan_. now left. Qed.

Lemma F_sub_self (x : F64) : F_fin x = true -> dsub x x = dofZ 0.
Proof.
  intros F. generalize (Bminus_correct 53 1024 eq_refl eq_refl binop_nan_pl64 mode_NE x x F F). cbv zeta. intros H.
  replace (B2R 53 1024 x - B2R 53 1024 x)%R with 0%R in H by ring. rewrite round_0 in H by typeclasses eauto.
  rewrite Rabs_R0, Rlt_bool_true in H by apply bpow_gt_0.
  change (Bminus 53 1024 _ _ _ mode_NE x x) with (dsub x x) in H. set (z := dsub x x) in *. clearbody z.
  destruct H as (H1 & H2 & H3). rewrite Rcompare_Eq in H3 by reflexivity.
  assert (S : Bsign 53 1024 z = false) by (rewrite H3; destruct (Bsign 53 1024 x); reflexivity).
  destruct z as [s|s|s p e|s mm ee bb]; try discriminate H2.
  - cbn in S. subst s. reflexivity.
  - exfalso. cbn in H1. apply eq_0_F2R in H1. destruct s; discriminate.
Qed.
Lemma F_add_zero (x : F64) : F_fin x = true -> deq x (dadd x (dofZ 0)) = true.
Proof.
  intros F. assert (Z0 : F2R64 (dofZ 0) = 0%R) by reflexivity. assert (FZ : F_fin (dofZ 0) = true) by reflexivity.
  assert (R0 : rnd (F2R64 x + F2R64 (dofZ 0)) = F2R64 x).
  { rewrite Z0, Rplus_0_r. apply round_generic; [typeclasses eauto|apply F_fmt]. }
  destruct (F_add_correct x (dofZ 0) F FZ) as [E Fz]; [unfold no_ovf; rewrite R0; apply F_abs_lt|].
  apply F_eq_fin; [exact F|exact Fz|]. now rewrite E, R0.
Qed.

(** ** scans *)
Lemma select_none {A} (keep : Z -> A -> Prop) : forall l i l', select keep i l l' ->
  (forall k a, nth_error l k = Some a -> ~ keep (i + Z.of_nat k) a) -> l' = [].
Proof.
  induction l as [|a l IH]; intros i l' H N; cbn [select] in H; [exact H|]. destruct H as [[K _]|[_ H]].
  - exfalso. apply (N 0%nat a eq_refl). now rewrite Z.add_0_r.
  - apply (IH (i + 1) l' H). intros k b E. replace (i + 1 + Z.of_nat k) with (i + Z.of_nat (S k)) by lia. now apply N.
Qed.

(** ** pose enumeration *)
Section Enumeration.
  Context {E : Type}.
  Variables (en : enumerator F64 E) (score : pose F64 -> F64) (obs : observers).
  Hypothesis NAN : forall p, disnan (score p) = true.
  Lemma pe_loop_nan : forall fuel e best bp tested out e' best' bp' tested' out',
    disnan bp = true -> pe_loop en score obs fuel e best bp tested out = Ok (e', best', bp', tested', out') -> best' = best /\ bp' = bp.
  Proof.
    induction fuel as [|fuel IH]; intros e best bp tested out e' best' bp' tested' out' NB H; cbn [pe_loop] in H.
    - destruct (e_has_next en e); [discriminate|]. injection H as _ <- <- _ _. auto.
    - destruct (e_has_next en e); [|injection H as _ <- <- _ _; auto]. destruct (e_next en e best) as [p e1].
      rewrite (F_nan_lt_l bp) in H by exact NB. now apply IH in H.
  Qed.
  Lemma process_scan_nan fuel e init r : process_scan en score obs fuel e init = Ok r ->
    mr_best r = init /\ mr_prob r = score init /\ mr_delta r = pose_sub init init.
  Proof.
    unfold process_scan. cbv zeta. intros H. apply bind_Ok_inv in H as ([[[[e' best] prob] tested] out] & HL & H).
    apply pe_loop_nan in HL as [-> ->]; [|apply NAN]. injection H as <-. cbn. auto.
  Qed.
End Enumeration.

(** ** hill climbing with fixed steps *)
Lemma hf_direction_nan (score : pose F64 -> F64) deg cur bp : disnan bp = true -> hf_direction score deg cur bp = (0, dofZ 0, dofZ 1).
Proof.
  intros NB. unfold hf_direction. cbn [fold_left].
  repeat (rewrite (F_nan_lt_l (dsub bp _)) by (apply F_nan_sub_l; exact NB)). reflexivity.
Qed.
Lemma hf_process_nan (score : pose F64 -> F64) deg : (forall p, disnan (score p) = true) -> forall fuel shrinks init,
  (1 <= fuel)%nat -> hf_process score deg fuel shrinks init = Ok (pose_sub init init, score init, init, shrinks).
Proof.
  intros NAN [|fuel] shrinks init L; [lia|]. unfold hf_process. cbn [hf_loop]. destruct (0 <? shrinks); [|reflexivity].
  rewrite hf_direction_nan by apply NAN.
  assert (A : hf_line score 5 init 0 (dofZ 0) (dmul (dofZ 16) (dofZ 0)) init (score init) = Ok (dofZ 0, init, score init)).
  { assert (E : dmul (dofZ 16) (dofZ 0) = dofZ 0 :> F64) by reflexivity. rewrite E. cbn [hf_line]. rewrite lt_irrefl_. reflexivity. }
  rewrite A. cbn [bind]. assert (X : deq (dofZ 0) (dofZ 0 : F64) = true) by reflexivity. rewrite X.
  assert (Y : dle (dofZ 0) (dofZ 1 : F64) = true) by reflexivity. rewrite Y. reflexivity.
Qed.

(** ** the multi-resolution engine *)
Section Engine.
  Variable score : F64 -> rect F64 -> F64.
  Hypothesis NAN : forall a r, disnan (score a r) = true.
  Variable pop : list (mtch F64) -> option (mtch F64 * list (mtch F64)).
  Hypothesis POP : forall q m r, pop q = Some (m, r) -> In m q.
  Definition all_nan (e : engine F64) : Prop := forall m, In m (e_queue e) -> disnan (m_prob m) = true.
  Definition fails {A} (o : outcome A) : Prop := o = Abort \/ o = OutOfFuel.

  Lemma mk_rect_fails (a b c d : F64) : (exists r, mk_rect a b c d = Ok r) \/ mk_rect a b c d = Abort.
  Proof. unfold mk_rect. destruct (_ && _); cbn; [left; eauto|now right]. Qed.
  Lemma mapM_fails {A B} (f : A -> outcome B) l : (forall a, (exists b, f a = Ok b) \/ f a = Abort) -> (exists bs, mapM f l = Ok bs) \/ mapM f l = Abort.
  Proof.
    intros H. induction l as [|a l IH]; cbn [mapM]; [left; eauto|]. destruct (H a) as [[b ->]| ->]; cbn [bind]; [|now right].
    destruct IH as [[bs ->]| ->]; cbn [bind]; [left; eauto|now right].
  Qed.
  Lemma add_match_nan diff e m : all_nan e -> disnan (m_prob m) = true -> all_nan (add_match diff e m).
  Proof.
    intros H N x Hx. unfold add_match in Hx. destruct (dlt _ _); [now apply H|]. cbn [e_queue] in Hx. destruct Hx as [<-|Hx]; auto.
  Qed.
  Lemma add_matches_nan diff ms : forall e, all_nan e -> Forall (fun m => disnan (m_prob m) = true) ms -> all_nan (add_matches diff e ms).
  Proof.
    unfold add_matches. induction ms as [|m ms IH]; intros e H F; cbn [fold_left]; [exact H|]. inversion F; subst. apply IH; [|assumption].
    now apply add_match_nan.
  Qed.
  Lemma rotation_matches_nan mx my rot : (exists ms, rotation_matches score mx my rot = Ok ms /\ Forall (fun m => disnan (m_prob m) = true) ms) \/ rotation_matches score mx my rot = Abort.
  Proof.
    unfold rotation_matches. destruct (mk_rect_fails (dopp my) my (dopp mx) mx) as [[r ->]| ->]; cbn [bind]; [|now right].
    left. eexists. split; [reflexivity|]. repeat constructor; apply NAN.
  Qed.
  Lemma rotations_nan mx my l : (exists ms, mapM (rotation_matches score mx my) l = Ok ms /\ Forall (fun m => disnan (m_prob m) = true) (concat ms)) \/ mapM (rotation_matches score mx my) l = Abort.
  Proof.
    induction l as [|a l IH]; cbn [mapM]; [left; exists []; split; [reflexivity|constructor]|].
    destruct (rotation_matches_nan mx my a) as [(ms & -> & F)| ->]; cbn [bind]; [|now right].
    destruct IH as [(mss & -> & F')| ->]; cbn [bind]; [|now right]. left. eexists. split; [reflexivity|]. cbn [concat]. now apply Forall_app.
  Qed.
  Lemma request_nan : forall fuel diff mx my sector res rot e, all_nan e ->
    (exists e', request_loop score fuel diff mx my sector res rot e = Ok e' /\ all_nan e') \/ fails (request_loop score fuel diff mx my sector res rot e).
  Proof.
    induction fuel as [|fuel IH]; intros diff mx my sector res rot e H; cbn [request_loop]; [right; now right|].
    destruct (less_or_equal _ _); [|left; eauto].
    destruct (rotations_nan mx my (rotation_pair rot)) as [(ms & -> & F)| ->]; cbn [bind]; [|right; now left].
    apply IH. now apply add_matches_nan.
  Qed.
  Lemma finer_nonempty (r : rect F64) horz vert : horz || vert = true -> (exists x rs, finer_drifts r horz vert = Ok (x :: rs)) \/ finer_drifts r horz vert = Abort.
  Proof.
    intros H. unfold finer_drifts, split4_evenly, split_horz, split_vert. destruct horz, vert; try discriminate; cbn [andb];
      repeat (match goal with |- context [mk_rect ?a ?b ?c ?d] => destruct (mk_rect_fails a b c d) as [[? ->]| ->]; cbn [bind]; [|now right] end); left; eauto.
  Qed.
  Lemma branch_nan diff e m horz vert : horz || vert = true -> branch score diff e m horz vert = Abort.
  Proof.
    intros H. unfold branch. destruct (finer_nonempty (m_drift m) horz vert H) as [(x & rs & ->)| ->]; cbn [bind]; [|reflexivity].
    cbn [branch_loop]. unfold less_or_equal_eps, are_equal_eps, less. unfold new_match at 1 2. cbn [m_prob].
    rewrite F_nan_le by (apply F_nan_abs, F_nan_sub_l, NAN). rewrite F_nan_lt_l by apply NAN. reflexivity.
  Qed.
  Lemma next_nan fuel diff step e : all_nan e -> fails (next_best_match score pop fuel diff step e) \/
    exists m e', next_best_match score pop fuel diff step e = Ok (m, e') /\ forall x, m = Some x -> disnan (m_prob x) = true.
  Proof.
    intros H. destruct fuel as [|fuel]; cbn [next_best_match]; destruct (pop (e_queue e)) as [[m q]|] eqn:Ep.
    - apply POP in Ep as I. destruct (_ && _); [|left; now right]. right. eexists _, _. split; [reflexivity|]. intros x [= <-]. now apply H.
    - right. eexists _, _. split; [reflexivity|]. discriminate.
    - apply POP in Ep as I.
      destruct (less step (hside_len (m_drift m))) eqn:A, (less step (vside_len (m_drift m))) eqn:B; cbn [negb andb];
        try (rewrite branch_nan by reflexivity; left; now left).
      right. eexists _, _. split; [reflexivity|]. intros x [= <-]. now apply H.
    - right. eexists _, _. split; [reflexivity|]. discriminate.
  Qed.
  Lemma search_nan fuel diff step e : all_nan e -> fails (search_loop score pop fuel diff step e).
  Proof.
    intros H. destruct fuel as [|fuel]; cbn [search_loop]; [now right|].
    destruct (next_nan fuel diff step e H) as [[-> | ->]|(m & e' & -> & N)]; cbn [bind]; [now left|now right|].
    destruct m as [m|]; [|now left]. rewrite (N m eq_refl). now left.
  Qed.
  Lemma m3rsm_nan fuel mx my mth astep step : fails (m3rsm_search score pop fuel mx my mth astep step).
  Proof.
    unfold m3rsm_search. destruct (request_nan fuel (dofZ 0) mx my (dmul (dofZ 2) mth) astep (dofZ 0) engine_new) as [(e & -> & N)|[-> | ->]]; cbn [bind].
    - intros m [].
    - now apply search_nan.
    - now left.
    - now right.
  Qed.
End Engine.
