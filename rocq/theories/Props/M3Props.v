(** C34: the multi-resolution (branch and bound) matcher. *)
From Coq Require Import Reals ZArith List Permutation Lia Lra Bool.
From Verif.Base Require Import Outcome Num.
From Verif.Model Require Import MathUtils Geometry M3Engine.
From Verif.Spec Require Import M3Spec.
From Verif.Proofs Require Import CompareProofs M3Proofs.
Import ListNotations.
Local Open Scope R_scope.

(** The returned match is an exact candidate of the searched window with its own score, and no candidate (of any requested
    rotation) has a score more than [delta] above it, [delta] being how much worse than its best element the queue's top may be. *)
Theorem C34_best_match : forall score pop delta fuel max_x max_y max_th ang_step step m,
  0 <= max_x -> 0 <= max_y -> 0 <= max_th -> 0 < ang_step -> 1 / IZR (2 ^ 52) <= step ->
  let W := mkRect (- max_y) max_y (- max_x) max_x in
  queue_ok (scored step W score) delta pop -> admissible step W score ->
  m3rsm_search score pop fuel max_x max_y max_th ang_step step = Ok m ->
  (exists x y, m_drift m = point_range x y /\ candidate step W x y /\ m_prob m = score (m_rot m) (point_range x y)) /\
  rotation_near max_th ang_step (m_rot m) /\
  forall rot x y, rotation_tried max_th ang_step rot -> candidate step W x y -> score rot (point_range x y) <= m_prob m + Rmax 0 delta.
Proof.
  intros score pop delta fuel max_x max_y max_th ang_step step m Hx Hy Ht Ha Hs W Hq Had E.
  destruct (m3_best score pop delta 0 fuel max_x max_y max_th ang_step step m Hx Hy Ht Ha Hs Hq (Rle_refl 0) (admissible_0 _ _ _ Had) E) as (A & _ & B & C).
  split; [exact A|]. split; [exact B|]. intros rot x y H1 H2. specialize (C rot x y H1 H2). lra.
Qed.
Print Assumptions C34_best_match.

(** The search ends with a match (no assertion fails) whenever the identity's score is not negative. *)
Theorem C34_search_ends : forall score pop delta max_x max_y max_th ang_step step,
  0 <= max_x -> 0 <= max_y -> 0 <= max_th -> 0 < ang_step -> 1 / IZR (2 ^ 52) < step ->
  let W := mkRect (- max_y) max_y (- max_x) max_x in
  queue_ok (scored step W score) delta pop -> admissible step W score -> 0 <= score 0 (point_range 0 0) ->
  exists n, forall fuel, (n <= fuel)%nat -> exists m, m3rsm_search score pop fuel max_x max_y max_th ang_step step = Ok m.
Proof. intros. eapply (m3_total score pop delta 0); eauto using admissible_0, Rle_refl. Qed.
Print Assumptions C34_search_ends.

(** The candidates are dense: every translation of the window is within half a step (per axis) of a candidate. *)
Theorem C34_candidates_dense : forall step max_x max_y x y, 1 / IZR (2 ^ 52) < step -> - max_x <= x <= max_x -> - max_y <= y <= max_y ->
  exists x' y', candidate step (mkRect (- max_y) max_y (- max_x) max_x) x' y' /\ Rabs (x - x') <= step / 2 /\ Rabs (y - y') <= step / 2.
Proof. intros step max_x max_y x y Hs X Y. apply candidates_dense; [exact Hs| |]; unfold proper, inside; cbn [bot top left right]; lra. Qed.
Print Assumptions C34_candidates_dense.

(** A standard priority queue is exact if no two scores and no two range sizes fall into the tolerance of the comparison... *)
Theorem C34_exact_queue : forall step W score pop, priority_queue match_less pop ->
  (forall rot r rot' r', separated (score rot r) (score rot' r')) ->
  (forall a b, scored step W score a -> scored step W score b -> separated (drift_amount a) (drift_amount b)) ->
  queue_ok (scored step W score) 0 pop.
Proof. exact queue_exact. Qed.
Print Assumptions C34_exact_queue.
(** ... and off by the tolerance if it finds an element that no other one is greater than. *)
Theorem C34_near_queue : forall step W score pop, pop [] = None ->
  (forall q, q <> [] -> Forall (scored step W score) q -> exists m rest, pop q = Some (m, rest) /\ Permutation q (m :: rest) /\ forall x, In x q -> match_less m x = false) ->
  (forall rot r, score rot r <= 1) -> queue_ok (scored step W score) (1 / 10000000) pop.
Proof. exact queue_near. Qed.
Print Assumptions C34_near_queue.

(** But the comparison is not an order: it has cycles, of exact candidates with ascending scores, so in general the standard
    library promises nothing about the top of the queue. *)
Theorem C34_order_cyclic : exists a b c : mtch R,
  m_drift a = point_range 0 0 /\ m_drift b = point_range 0 0 /\ m_drift c = point_range 0 0 /\ 0 < m_prob c < m_prob b /\ m_prob b < m_prob a < 1 /\
  match_less a b = true /\ match_less b c = true /\ match_less c a = true.
Proof.
  exists (mkMatch (1/2 + 16 / 100000000) 3 (point_range 0 0)), (mkMatch (1/2 + 8 / 100000000) 2 (point_range 0 0)), (mkMatch (1/2) 1 (point_range 0 0)).
  assert (Q : forall x y, 0 <= x -> 0 <= y -> x <= 1 -> y <= 1 -> tol x y = 1 / 10000000).
  { intros x y A B C D. unfold tol. rewrite !Rabs_pos_eq by assumption. unfold Rmax. repeat destruct (Rle_dec _ _); lra. }
  assert (Z : forall p q, drift_amount (mkMatch p q (point_range 0 0)) = 0) by (intros; unfold drift_amount, hside_len, vside_len, point_range; cbn; ring).
  assert (Z0 : are_equal 0 0 = true) by (apply are_equal_sep; [now left|reflexivity]).
  cbn [m_drift m_prob]. repeat (split; [lra || reflexivity|]).
  assert (E1 : are_equal (1/2 + 16 / 100000000) (1/2 + 8 / 100000000) = true) by (apply R_are_equal; rewrite Q by lra; rewrite Rabs_pos_eq; lra).
  assert (E2 : are_equal (1/2 + 8 / 100000000) (1/2) = true) by (apply R_are_equal; rewrite Q by lra; rewrite Rabs_pos_eq; lra).
  assert (E3 : are_equal (1/2) (1/2 + 16 / 100000000) = false).
  { apply not_true_iff_false. rewrite R_are_equal, Q by lra. rewrite Rabs_left; lra. }
  unfold match_less. cbn [m_prob]. rewrite !Z, E1, E2, E3, Z0. cbn [negb m_rot dlt dabs ROps]. rewrite !Rabs_pos_eq by lra.
  split; [apply R_lt_true; lra|]. split; [apply R_lt_true; lra|]. apply R_less. assert (X := eps52). lra.
Qed.
Print Assumptions C34_order_cyclic.

(** *** A concrete search: the score is 1 for ranges containing (1, 1) and no rotation, else 0. *)
(** a priority queue *)
Fixpoint ex_pop (q : list (mtch R)) : option (mtch R * list (mtch R)) :=
  match q with
  | [] => None
  | a :: q' => match ex_pop q' with None => Some (a, q') | Some (m, r) => if match_less a m then Some (m, a :: r) else Some (a, q') end
  end.
Lemma ex_pop_nonempty q : q <> [] -> exists m rest, ex_pop q = Some (m, rest) /\ Permutation q (m :: rest) /\ (strict_weak_order q match_less -> forall x, In x q -> match_less m x = false).
Proof.
  induction q as [|a q IH]; [congruence|]. intros _. cbn [ex_pop]. destruct q as [|b q]; [exists a, []; repeat split; auto; intros (I & _) x [<-|[]]; apply I; now left|].
  destruct IH as (m & r & E & P & T); [discriminate|]. rewrite E. assert (Im : In m (b :: q)) by (apply (Permutation_in m (Permutation_sym P)); now left). set (q' := b :: q) in *.
  assert (SW : strict_weak_order (a :: q') match_less -> strict_weak_order q' match_less).
  { intros (A & B & C). split; [intros; apply A; now right|]. split; [intros x y z X Y Z; apply B; now right|intros x y z X Y Z; apply C; now right]. }
  destruct (match_less a m) eqn:L.
  - exists m, (a :: r). split; [reflexivity|]. split; [transitivity (a :: m :: r); [now constructor|constructor]|]. intros S x [<-|I]; [|apply T; auto].
    destruct S as (A & B & C). destruct (match_less m a) eqn:L'; [|reflexivity]. assert (X : match_less m m = true) by (apply (B m a m); [now right|now left|now right|exact L'|exact L]). rewrite (A m) in X by (now right). discriminate.
  - exists a, q'. split; [reflexivity|]. split; [reflexivity|]. intros S x [<-|I]; [apply S; now left|]. assert (Tx := T (SW S) x I). destruct S as (A & B & C).
    destruct (match_less a x) eqn:L1; [|reflexivity]. exfalso. destruct (match_less m a) eqn:L2.
    + assert (match_less m x = true) by (apply (B m a x); [now right|now left|now right|assumption|assumption]). congruence.
    + destruct (match_less x m) eqn:L3.
      * assert (match_less a m = true) by (apply (B a x m); [now left|now right|now right|assumption|assumption]). congruence.
      * assert (X : match_less a x = false /\ match_less x a = false) by (apply (C a m x); [now left|now right|now right|assumption..]). destruct X. congruence.
Qed.
Lemma ex_pop_priority_queue : priority_queue match_less ex_pop.
Proof. split; [reflexivity|]. exact ex_pop_nonempty. Qed.
Definition ex_hit (rot : R) (r : rect R) : Prop := rot = 0 /\ left r <= 1 <= right r /\ bot r <= 1 <= top r.
Definition ex_score (rot : R) (r : rect R) : R := if Req_EM_T rot 0 then if Rle_dec (left r) 1 then if Rle_dec 1 (right r) then if Rle_dec (bot r) 1 then if Rle_dec 1 (top r) then 1 else 0 else 0 else 0 else 0 else 0.
Lemma ex_score_cases rot r : ex_hit rot r /\ ex_score rot r = 1 \/ ~ ex_hit rot r /\ ex_score rot r = 0.
Proof. unfold ex_hit, ex_score. destruct (Req_EM_T rot 0); [|right; split; tauto]. repeat (destruct (Rle_dec _ _); [|right; split; tauto]). left. tauto. Qed.
Definition ex_W : rect R := mkRect (-1) 1 (-1) 1.
Lemma ex_score_mono rot r c : (ex_hit rot c -> ex_hit rot r) -> ex_score rot c <= ex_score rot r.
Proof. intros H. destruct (ex_score_cases rot c) as [[A ->]|[A ->]]; destruct (ex_score_cases rot r) as [[B ->]|[B ->]]; try lra. tauto. Qed.
Lemma ex_W_range r : range_of 1 ex_W r -> proper r.
Proof. apply range_proper. unfold proper, ex_W. cbn. lra. Qed.
Lemma ex_score_admissible : admissible 1 ex_W ex_score.
Proof.
  split.
  - intros rot r c H P. apply ex_score_mono. apply ex_W_range in H. destruct H as [H1 H2]. assert (A := mid_bounds _ _ H1). assert (B := mid_bounds _ _ H2). unfold ex_hit.
    destruct P; unfold left_half, right_half, lower_half, upper_half; cbn [bot top left right]; lra.
  - intros rot l x y L T. apply ex_score_mono. destruct (leaf_of_range 1 ex_W ex_W l (r_self 1 ex_W) L) as [Rn _]. apply ex_W_range in Rn. destruct Rn as [H1 H2]. assert (A := mid_bounds _ _ H1). assert (B := mid_bounds _ _ H2).
    unfold ex_hit, point_range, tried_in in *. cbn [bot top left right]. destruct T as [[[->| ->] [->| ->]]|[-> ->]]; lra.
Qed.
Lemma ex_W_sides r : range_of 1 ex_W r -> right r - left r = top r - bot r /\ (top r - bot r = 2 \/ top r - bot r = 1 \/ top r - bot r = 1/2).
Proof.
  assert (E := eps52). induction 1 as [|r c _ IH P]; [unfold ex_W; cbn; lra|]. destruct IH as [I1 I2]. destruct P; unfold long, left_half, right_half, lower_half, upper_half, mid in *; cbn [bot top left right] in *; lra.
Qed.
Lemma ex_sep_far a b : 0 <= a <= 4 -> 0 <= b <= 4 -> a = b \/ 1 / 1000000 < Rabs (a - b) -> separated a b.
Proof. intros A B [->|H]; [now left|]. right. unfold tol. rewrite (Rabs_pos_eq a), (Rabs_pos_eq b) by lra. unfold Rmax. repeat destruct (Rle_dec _ _); lra. Qed.
Lemma ex_amount m : scored 1 ex_W ex_score m -> drift_amount m = 0 \/ drift_amount m = 1 \/ drift_amount m = 2 \/ drift_amount m = 4.
Proof.
  intros (_ & _ & [(x & y & E & _)|Rn]); unfold drift_amount, hside_len, vside_len; cbn [dadd dsub ROps].
  - rewrite E. unfold point_range. cbn [bot top left right]. lra.
  - apply ex_W_sides in Rn. lra.
Qed.
Lemma ex_pop_exact : queue_ok (scored 1 ex_W ex_score) 0 ex_pop.
Proof.
  apply C34_exact_queue; [exact ex_pop_priority_queue| |].
  - intros rot r rot' r'. destruct (ex_score_cases rot r) as [[_ E1]|[_ E1]]; destruct (ex_score_cases rot' r') as [[_ E2]|[_ E2]]; rewrite E1, E2; apply ex_sep_far; try lra; (left; lra) || (right; unfold Rabs; destruct (Rcase_abs _); lra).
  - intros a b A B. apply ex_amount in A. apply ex_amount in B. apply ex_sep_far; try lra.
    destruct A as [->|[->|[->| ->]]]; destruct B as [->|[->|[->| ->]]]; try (left; lra); right; unfold Rabs; destruct (Rcase_abs _); lra.
Qed.
Example C34_found : exists n, forall fuel, (n <= fuel)%nat -> exists m, m3rsm_search ex_score ex_pop fuel 1 1 (1/2) (1/10) 1 = Ok m /\ m_prob m = 1 /\ m_drift m = point_range 1 1 /\ m_rot m = 0.
Proof.
  assert (E52 := eps52). assert (Q := ex_pop_exact). assert (Ad := ex_score_admissible).
  destruct (C34_search_ends ex_score ex_pop 0 1 1 (1/2) (1/10) 1 ltac:(lra) ltac:(lra) ltac:(lra) ltac:(lra) ltac:(lra) Q Ad) as (n & H).
  { destruct (ex_score_cases 0 (point_range 0 0)) as [[_ ->]|[_ ->]]; lra. }
  exists n. intros fuel Hf. destruct (H fuel Hf) as (m & E). exists m. split; [exact E|].
  destruct (C34_best_match ex_score ex_pop 0 fuel 1 1 (1/2) (1/10) 1 m ltac:(lra) ltac:(lra) ltac:(lra) ltac:(lra) ltac:(lra) Q Ad E) as ((x & y & Ed & C & Ep) & _ & B).
  assert (Cd : candidate 1 (mkRect (- (1)) 1 (- (1)) 1) 1 1).
  { right. exists (mkRect (1/2) 1 (1/2) 1). split; [|left; cbn; auto].
    apply (l_part 1 _ (mkRect 0 1 0 1)).
    - replace (mkRect 0 1 0 1) with (right_half (upper_half (mkRect (- (1)) 1 (- (1)) 1))) by (unfold right_half, upper_half, mid; cbn; f_equal; lra).
      apply (p_ru 1 (mkRect (- (1)) 1 (- (1)) 1)); unfold long; cbn; lra.
    - apply (l_part 1 _ (mkRect (1/2) 1 (1/2) 1)).
      + replace (mkRect (1/2) 1 (1/2) 1) with (right_half (upper_half (mkRect 0 1 0 1))) by (unfold right_half, upper_half, mid; cbn; f_equal; lra).
        apply (p_ru 1 (mkRect 0 1 0 1)); unfold long; cbn; lra.
      + apply l_self. unfold leaf, long. cbn. lra. }
  assert (Rt : rotation_tried (1/2) (1/10) 0) by (exists 0%nat; cbn [INR]; split; lra).
  specialize (B 0 1 1 Rt Cd). rewrite Rmax_left in B by lra.
  destruct (ex_score_cases 0 (point_range 1 1)) as [[_ Es]|[N _]]; [|exfalso; apply N; unfold ex_hit, point_range; cbn; lra]. rewrite Es in B.
  destruct (ex_score_cases (m_rot m) (point_range x y)) as [[(Hr & Hh) Em]|[_ Em]]; [|lra]. unfold point_range in Hh. cbn [bot top left right] in Hh.
  split; [lra|]. split; [|exact Hr]. rewrite Ed. f_equal; lra.
Qed.
