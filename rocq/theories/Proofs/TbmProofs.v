(** The transferable belief model over exact arithmetic with NaN. *)
From Coq Require Import Reals ZArith List Bool Lra Lia.
From Verif.Base Require Import Outcome Num XReal.
From Verif.Model Require Import MathUtils Geometry PlainMap Cells.
From Verif.Spec Require Import CellSpec.
Import ListNotations.
Local Open Scope R_scope.

(** a belief assignment of the code for given masses of the sets of states *)
Definition tbm_of (m : mass) : tbm XR :=
  mkTbm (Some (m (mkStates true true))) (Some (m (mkStates true false)))
        (Some (m (mkStates false true))) (Some (m (mkStates false false))).

Definition xt (u e o c : R) : tbm XR := mkTbm (Some u) (Some e) (Some o) (Some c).

Lemma conj_xt u e o c u' e' o' c' : u + e + o + c = 1 -> u' + e' + o' + c' = 1 ->
  conjunctive (xt u e o c) (xt u' e' o' c') =
  xt (u * u') (u * e' + e * u' + e * e') (u * o' + o * u' + o * o')
     (u * c' + e * o' + e * c' + o * e' + o * c' + c * u' + c * e' + c * o' + c * c').
Proof.
  intros H H'. unfold conjunctive, tbm_combine. cbn -[IZR Req_EM_T R_eq].
  unfold tbm_normalize. cbn -[IZR Req_EM_T R_eq].
  match goal with |- context [R_eq ?t 0] => assert (T : t = 1) end.
  { replace 1 with ((u + e + o + c) * (u' + e' + o' + c')) by (rewrite H, H'; ring). ring. }
  rewrite T. replace (R_eq 1 0) with false by (symmetry; apply R_eq_false; lra).
  destruct (Req_EM_T 1 0) as [E|_]; [lra|]. unfold xt. f_equal; f_equal; field.
Qed.

Lemma disj_xt u e o c u' e' o' c' : u + e + o + c = 1 -> u' + e' + o' + c' = 1 ->
  disjunctive (xt u e o c) (xt u' e' o' c') =
  xt (u * u' + u * e' + u * o' + u * c' + e * u' + e * o' + o * u' + o * e' + c * u')
     (e * e' + e * c' + c * e') (o * o' + o * c' + c * o') (c * c').
Proof.
  intros H H'. unfold disjunctive, tbm_combine. cbn -[IZR Req_EM_T R_eq].
  unfold tbm_normalize. cbn -[IZR Req_EM_T R_eq].
  match goal with |- context [R_eq ?t 0] => assert (T : t = 1) end.
  { replace 1 with ((u + e + o + c) * (u' + e' + o' + c')) by (rewrite H, H'; ring). ring. }
  rewrite T. replace (R_eq 1 0) with false by (symmetry; apply R_eq_false; lra).
  destruct (Req_EM_T 1 0) as [E|_]; [lra|]. unfold xt. f_equal; f_equal; field.
Qed.

Definition nn4 (u e o c : R) : Prop := 0 <= u /\ 0 <= e /\ 0 <= o /\ 0 <= c /\ u + e + o + c = 1.
(** the masses of a tbm are numbers in [0,1] summing to one *)
Definition tbm_ok (t : tbm XR) : Prop := exists u e o c, t = xt u e o c /\ nn4 u e o c.

Lemma normconf_xt u e o c : u + e + o <> 0 ->
  tbm_normalize_conflict (xt u e o c) = xt (u / (u + e + o)) (e / (u + e + o)) (o / (u + e + o)) 0.
Proof.
  intros H. unfold tbm_normalize_conflict, xt. cbn -[IZR Req_EM_T R_eq].
  replace (R_eq (u + e + o) 0) with false by (symmetry; apply R_eq_false; auto).
  destruct (Req_EM_T (u + e + o) 0) as [E|_]; [contradiction|]. reflexivity.
Qed.
Lemma normconf_xt0 u e o c : u + e + o = 0 -> tbm_normalize_conflict (xt u e o c) = xt 1 0 0 0.
Proof.
  intros H. unfold tbm_normalize_conflict, xt. cbn -[IZR Req_EM_T R_eq].
  replace (R_eq (u + e + o) 0) with true by (symmetry; apply R_eq_true; auto). reflexivity.
Qed.

Lemma conj_ok a b : tbm_ok a -> tbm_ok b -> tbm_ok (conjunctive a b).
Proof.
  intros (u & e & o & c & -> & H1 & H2 & H3 & H4 & HS) (u' & e' & o' & c' & -> & H1' & H2' & H3' & H4' & HS').
  rewrite conj_xt by auto. do 4 eexists. split; [reflexivity|].
  unfold nn4. repeat split;
    repeat (apply Rplus_le_le_0_compat); try (apply Rmult_le_pos; assumption).
  replace 1 with ((u + e + o + c) * (u' + e' + o' + c')) by (rewrite HS, HS'; ring). ring.
Qed.
Lemma disj_ok a b : tbm_ok a -> tbm_ok b -> tbm_ok (disjunctive a b).
Proof.
  intros (u & e & o & c & -> & H1 & H2 & H3 & H4 & HS) (u' & e' & o' & c' & -> & H1' & H2' & H3' & H4' & HS').
  rewrite disj_xt by auto. do 4 eexists. split; [reflexivity|].
  unfold nn4. repeat split;
    repeat (apply Rplus_le_le_0_compat); try (apply Rmult_le_pos; assumption).
  replace 1 with ((u + e + o + c) * (u' + e' + o' + c')) by (rewrite HS, HS'; ring). ring.
Qed.
Lemma default_ok : tbm_ok tbm_default.
Proof. exists 1, 0, 0, 0. split; [reflexivity|]. unfold nn4; lra. Qed.
Lemma normconf_ok a : tbm_ok a -> tbm_ok (tbm_normalize_conflict a).
Proof.
  intros (u & e & o & c & -> & H1 & H2 & H3 & H4 & HS).
  destruct (Req_EM_T (u + e + o) 0) as [E|NE].
  - rewrite normconf_xt0 by auto. apply default_ok.
  - rewrite normconf_xt by auto. do 4 eexists. split; [reflexivity|].
    assert (0 < u + e + o) by lra. unfold nn4.
    repeat split; try (apply Rle_mult_inv_pos; assumption); try lra. field. lra.
Qed.
Lemma norm_ok a : tbm_ok a -> tbm_ok (tbm_normalize a).
Proof.
  intros (u & e & o & c & -> & H). assert (H' := H). destruct H' as (H1 & H2 & H3 & H4 & HS).
  exists u, e, o, c. split; auto. unfold tbm_normalize, xt. cbn -[IZR Req_EM_T R_eq]. rewrite HS.
  replace (R_eq 1 0) with false by (symmetry; apply R_eq_false; lra).
  destruct (Req_EM_T 1 0) as [E|_]; [lra|]. f_equal; f_equal; field.
Qed.

(** *** agreement with the set-theoretic definition *)
Lemma tbm_of_ok m : bba m -> tbm_ok (tbm_of m).
Proof.
  intros [H HS]. do 4 eexists. split; [reflexivity|]. unfold nn4. repeat split; auto.
  cbn in HS. lra.
Qed.
Lemma conj_is_set_theoretic m1 m2 : bba m1 -> bba m2 ->
  conjunctive (tbm_of m1) (tbm_of m2) = tbm_of (combine inter m1 m2) /\ bba (combine inter m1 m2).
Proof.
  intros [H1 HS1] [H2 HS2]. cbn in HS1, HS2. split.
  - unfold tbm_of. fold (xt (m1 (mkStates true true)) (m1 (mkStates true false)) (m1 (mkStates false true)) (m1 (mkStates false false))).
    fold (xt (m2 (mkStates true true)) (m2 (mkStates true false)) (m2 (mkStates false true)) (m2 (mkStates false false))).
    rewrite conj_xt by lra. unfold xt, combine. cbn. f_equal; f_equal; ring.
  - split.
    + intros s. assert (P : forall x y, 0 <= m1 x * m2 y) by (intros; apply Rmult_le_pos; auto).
      destruct s as [[|] [|]]; unfold combine; cbn;
      repeat apply Rplus_le_le_0_compat; try apply P; apply Rle_refl.
    + unfold combine. cbn.
      match goal with |- ?x = 1 => replace x with
       ((m1 (mkStates true true) + m1 (mkStates true false) + m1 (mkStates false true) + m1 (mkStates false false)) *
        (m2 (mkStates true true) + m2 (mkStates true false) + m2 (mkStates false true) + m2 (mkStates false false)))
        by ring end.
      replace (m1 _ + _ + _ + _) with 1 by lra. replace (m2 _ + _ + _ + _) with 1 by lra. ring.
Qed.
Lemma disj_is_set_theoretic m1 m2 : bba m1 -> bba m2 ->
  disjunctive (tbm_of m1) (tbm_of m2) = tbm_of (combine union m1 m2) /\ bba (combine union m1 m2).
Proof.
  intros [H1 HS1] [H2 HS2]. cbn in HS1, HS2. split.
  - unfold tbm_of. fold (xt (m1 (mkStates true true)) (m1 (mkStates true false)) (m1 (mkStates false true)) (m1 (mkStates false false))).
    fold (xt (m2 (mkStates true true)) (m2 (mkStates true false)) (m2 (mkStates false true)) (m2 (mkStates false false))).
    rewrite disj_xt by lra. unfold xt, combine. cbn. f_equal; f_equal; ring.
  - split.
    + intros s. assert (P : forall x y, 0 <= m1 x * m2 y) by (intros; apply Rmult_le_pos; auto).
      destruct s as [[|] [|]]; unfold combine; cbn;
      repeat apply Rplus_le_le_0_compat; try apply P; apply Rle_refl.
    + unfold combine. cbn.
      match goal with |- ?x = 1 => replace x with
       ((m1 (mkStates true true) + m1 (mkStates true false) + m1 (mkStates false true) + m1 (mkStates false false)) *
        (m2 (mkStates true true) + m2 (mkStates true false) + m2 (mkStates false true) + m2 (mkStates false false)))
        by ring end.
      replace (m1 _ + _ + _ + _) with 1 by lra. replace (m2 _ + _ + _ + _) with 1 by lra. ring.
Qed.

(** *** algebra *)
Ltac open_ok H := let u := fresh "u" in let e := fresh "e" in let o := fresh "o" in let c := fresh "c" in
  let H1 := fresh in let H2 := fresh in let H3 := fresh in let H4 := fresh in let HS := fresh "HS" in
  destruct H as (u & e & o & c & -> & H1 & H2 & H3 & H4 & HS).

Lemma sum4 u e o c u' e' o' c' : u + e + o + c = 1 -> u' + e' + o' + c' = 1 ->
  forall x, x = (u + e + o + c) * (u' + e' + o' + c') -> x = 1.
Proof. intros -> -> x ->. ring. Qed.

Lemma conj_comm a b : tbm_ok a -> tbm_ok b -> conjunctive a b = conjunctive b a.
Proof. intros A B. open_ok A. open_ok B. rewrite !conj_xt by auto. unfold xt. f_equal; f_equal; ring. Qed.
Lemma disj_comm a b : tbm_ok a -> tbm_ok b -> disjunctive a b = disjunctive b a.
Proof. intros A B. open_ok A. open_ok B. rewrite !disj_xt by auto. unfold xt. f_equal; f_equal; ring. Qed.
Lemma conj_assoc a b d : tbm_ok a -> tbm_ok b -> tbm_ok d ->
  conjunctive a (conjunctive b d) = conjunctive (conjunctive a b) d.
Proof.
  intros A B E. open_ok A. open_ok B. open_ok E.
  rewrite (conj_xt u0 e0 o0 c0 u1 e1 o1 c1), (conj_xt u e o c u0 e0 o0 c0) by auto.
  rewrite !conj_xt; auto.
  2:{ apply (sum4 u e o c u0 e0 o0 c0); auto. ring. }
  2:{ apply (sum4 u0 e0 o0 c0 u1 e1 o1 c1); auto. ring. }
  unfold xt. f_equal; f_equal; ring.
Qed.
Lemma disj_assoc a b d : tbm_ok a -> tbm_ok b -> tbm_ok d ->
  disjunctive a (disjunctive b d) = disjunctive (disjunctive a b) d.
Proof.
  intros A B E. open_ok A. open_ok B. open_ok E.
  rewrite (disj_xt u0 e0 o0 c0 u1 e1 o1 c1), (disj_xt u e o c u0 e0 o0 c0) by auto.
  rewrite !disj_xt; auto.
  2:{ apply (sum4 u e o c u0 e0 o0 c0); auto. ring. }
  2:{ apply (sum4 u0 e0 o0 c0 u1 e1 o1 c1); auto. ring. }
  unfold xt. f_equal; f_equal; ring.
Qed.
Lemma conj_default a : tbm_ok a -> conjunctive a tbm_default = a.
Proof.
  intros A. open_ok A. change tbm_default with (xt 1 0 0 0). rewrite conj_xt by lra.
  unfold xt. f_equal; f_equal; ring.
Qed.
Lemma disj_conflict a : tbm_ok a -> disjunctive a (xt 0 0 0 1) = a.
Proof. intros A. open_ok A. rewrite disj_xt by lra. unfold xt. f_equal; f_equal; ring. Qed.
Lemma disj_default a : tbm_ok a -> disjunctive a tbm_default = tbm_default.
Proof.
  intros A. open_ok A. change (tbm_default) with (xt 1 0 0 0). rewrite disj_xt by lra.
  unfold xt. f_equal; f_equal; try ring; lra.
Qed.
Lemma conj_conflict a : tbm_ok a -> conjunctive a (xt 0 0 0 1) = xt 0 0 0 1.
Proof. intros A. open_ok A. rewrite conj_xt by lra. unfold xt. f_equal; f_equal; try ring; lra. Qed.

(** *** observations *)
(** a valid observation with probability, estimation quality and quality in [0,1] *)
Definition xobs (a : aoo XR) : Prop :=
  exists (p e q : R), prob_occ (a_occ a) = Some p /\ est_quality (a_occ a) = Some e /\ a_quality a = Some q /\
    in01 p /\ in01 e /\ in01 q.
Lemma in01_mul x y : in01 x -> in01 y -> in01 (x * y).
Proof.
  unfold in01. intros [H1 H2] [H3 H4]. split; [apply Rmult_le_pos; auto|].
  replace 1 with (1 * 1) by ring. apply Rmult_le_compat; auto.
Qed.
Lemma aoo2tbm_x (a : aoo XR) p e q : prob_occ (a_occ a) = Some p -> est_quality (a_occ a) = Some e -> a_quality a = Some q ->
  aoo2tbm a = xt (1 - p * (e * q) - (1 - p) * (e * q)) ((1 - p) * (e * q)) (p * (e * q)) 0.
Proof. intros Hp He Hq. unfold aoo2tbm, occ_valid. rewrite Hp, He, Hq. reflexivity. Qed.
Lemma aoo2tbm_nn p k : in01 p -> in01 k -> nn4 (1 - p * k - (1 - p) * k) ((1 - p) * k) (p * k) 0.
Proof.
  unfold in01, nn4. intros [Hp1 Hp2] [Hk1 Hk2].
  assert (0 <= p * k) by (apply Rmult_le_pos; lra). assert (0 <= (1 - p) * k) by (apply Rmult_le_pos; lra).
  replace (1 - p * k - (1 - p) * k) with (1 - k) by ring. repeat split; try lra.
Qed.
Lemma aoo2tbm_ok a : xobs a \/ occ_valid (a_occ a) = false -> tbm_ok (aoo2tbm a).
Proof.
  intros [(p & e & q & Hp & He & Hq & P & E & Q)|H].
  - rewrite (aoo2tbm_x a p e q) by auto. do 4 eexists. split; [reflexivity|].
    apply aoo2tbm_nn; auto. apply in01_mul; auto.
  - unfold aoo2tbm. rewrite H. apply default_ok.
Qed.

Lemma tcell_upd_ok conv c a : tbm_ok (tc_belief c) -> xobs a \/ occ_valid (a_occ a) = false ->
  tbm_ok (tc_belief (tcell_upd conv c a)).
Proof.
  intros H Ha. unfold tcell_upd. destruct (occ_valid (a_occ a)) eqn:E; [|exact H].
  cbn [tc_belief]. apply normconf_ok, conj_ok; auto. apply aoo2tbm_ok. rewrite E. exact Ha.
Qed.

(** *** histories of cell updates *)
Lemma tcell_upd_cell conv (c : tcell XR) a : occ_valid (a_occ a) = true ->
  tc_cell (tcell_upd conv c a) = mkGCell (conv (tc_belief (tcell_upd conv c a))) false.
Proof. intros H. unfold tcell_upd. rewrite H. cbn [tc_cell tc_belief]. reflexivity. Qed.
Lemma tcell_upd_invalid conv (c : tcell XR) a : occ_valid (a_occ a) = false -> tcell_upd conv c a = c.
Proof. intros H. unfold tcell_upd. rewrite H. reflexivity. Qed.
Definition good_obs (a : aoo XR) : Prop := xobs a \/ occ_valid (a_occ a) = false.
Lemma tcell_run_ok conv h : forall c, tbm_ok (tc_belief c) -> Forall good_obs h ->
  tbm_ok (tc_belief (fold_left (tcell_upd conv) h c)).
Proof.
  induction h as [|a h IH]; intros c Hc Hh; cbn [fold_left]; auto.
  inversion Hh; subst. apply IH; auto. apply tcell_upd_ok; auto.
Qed.

(** occupancy of the cell always is the conversion of its belief once updated *)
Lemma unknown_even_ok t : tbm_ok t -> exists p, prob_occ (occ_unknown_even t) = Some p /\ in01 p.
Proof.
  intros H. open_ok H. exists (o + 1 / 2 * u). split.
  - unfold occ_unknown_even, xt, dhalf. rewrite X_lit by lia. reflexivity.
  - unfold in01. lra.
Qed.
Definition prob_num (c : gcell XR) : Prop := exists p, c_prob c = Some p /\ in01 p.

Lemma unknown_even_run h : forall c, tbm_ok (tc_belief c) -> prob_num (tc_cell c) -> Forall good_obs h ->
  prob_num (tc_cell (fold_left (tcell_upd occ_unknown_even) h c)).
Proof.
  induction h as [|a h IH]; intros c Hc Hp Hh; cbn [fold_left]; auto.
  inversion Hh; subst. apply IH; auto; [apply tcell_upd_ok; auto|].
  assert (HU := tcell_upd_ok occ_unknown_even c a Hc H1).
  destruct (occ_valid (a_occ a)) eqn:Ev; [|rewrite tcell_upd_invalid; auto].
  rewrite tcell_upd_cell by exact Ev. unfold prob_num, c_prob. cbn [c_occ].
  apply unknown_even_ok. exact HU.
Qed.

(** TbmOccConsistentCell: with total qualities below 1 the unknown mass stays positive, and once an observation of
    positive total quality arrived the ratio is defined *)
Definition quality_of (a : aoo XR) : XR := dmul (est_quality (a_occ a)) (a_quality a).
Definition weak_obs (a : aoo XR) : Prop :=
  occ_valid (a_occ a) = false \/
  exists (p e q : R), prob_occ (a_occ a) = Some p /\ est_quality (a_occ a) = Some e /\ a_quality a = Some q /\
    in01 p /\ in01 e /\ in01 q /\ e * q < 1.
Definition informative (a : aoo XR) : Prop :=
  occ_valid (a_occ a) = true /\ exists k : R, quality_of a = Some k /\ 0 < k.

(** belief of a cell that has seen only weak observations *)
Definition weak_belief (seen : Prop) (t : tbm XR) : Prop :=
  exists u e o, t = xt u e o 0 /\ nn4 u e o 0 /\ 0 < u /\ (seen -> 0 < o + e).

Lemma weak_upd seen c a : weak_belief seen (tc_belief c) -> weak_obs a -> occ_valid (a_occ a) = true ->
  weak_belief (seen \/ informative a) (tc_belief (tcell_upd occ_consistent c a)).
Proof.
  intros (u & e & o & Et & (H1 & H2 & H3 & _ & HS) & Hu & Hs) Hw Hv.
  destruct Hw as [Hw|(p & e0 & q & Ep & Ee & Eq & P & E & Q & K)]; [congruence|].
  unfold tcell_upd. rewrite Hv. cbn [tc_belief]. rewrite Et, (aoo2tbm_x a p e0 q) by auto.
  set (k := e0 * q) in *. assert (Hk : in01 k) by (apply in01_mul; auto).
  replace (1 - p * k - (1 - p) * k) with (1 - k) by ring.
  assert (N := aoo2tbm_nn p k P Hk). replace (1 - p * k - (1 - p) * k) with (1 - k) in N by ring.
  destruct N as (N1 & N2 & N3 & _ & NS).
  rewrite conj_xt by lra.
  set (E' := (1 - p) * k) in *. set (O' := p * k) in *. set (U' := 1 - k) in *.
  assert (0 < U') by (unfold U'; lra).
  assert (PU : 0 < u * U') by (apply Rmult_lt_0_compat; lra).
  assert (PE : 0 <= u * E' + e * U' + e * E').
  { repeat apply Rplus_le_le_0_compat; apply Rmult_le_pos; lra. }
  assert (PO : 0 <= u * O' + o * U' + o * O').
  { repeat apply Rplus_le_le_0_compat; apply Rmult_le_pos; lra. }
  set (NU := u * U') in *. set (NE := u * E' + e * U' + e * E') in *. set (NO := u * O' + o * U' + o * O') in *.
  rewrite normconf_xt by lra. set (w := NU + NE + NO). assert (W : 0 < w) by (unfold w; lra).
  exists (NU / w), (NE / w), (NO / w). split; [reflexivity|]. split.
  { unfold nn4. repeat split; try (apply Rle_mult_inv_pos; lra); try lra. unfold w. field. lra. }
  split; [apply Rdiv_lt_0_compat; lra|].
  intros Hseen. replace (NO / w + NE / w) with ((NO + NE) / w) by (field; lra). apply Rdiv_lt_0_compat; auto.
  destruct Hseen as [Hseen|(_ & k' & Ek & Hk')].
  - specialize (Hs Hseen).
    assert (0 < (o + e) * U') by (apply Rmult_lt_0_compat; lra).
    assert (0 <= u * O' + o * O') by (apply Rplus_le_le_0_compat; apply Rmult_le_pos; lra).
    assert (0 <= u * E' + e * E') by (apply Rplus_le_le_0_compat; apply Rmult_le_pos; lra).
    unfold NO, NE. lra.
  - unfold quality_of in Ek. rewrite Ee, Eq in Ek. cbn in Ek. injection Ek as Ek. fold k in Ek.
    assert (HO : O' + E' = k) by (unfold O', E'; ring).
    assert (0 < u * (O' + E')) by (apply Rmult_lt_0_compat; lra).
    assert (0 <= o * U' + o * O') by (apply Rplus_le_le_0_compat; apply Rmult_le_pos; lra).
    assert (0 <= e * U' + e * E') by (apply Rplus_le_le_0_compat; apply Rmult_le_pos; lra).
    unfold NO, NE. lra.
Qed.

Lemma occ_consistent_num t seen : weak_belief seen t -> seen ->
  exists p, prob_occ (occ_consistent t) = Some p /\ in01 p.
Proof.
  intros (u & e & o & -> & (H1 & H2 & H3 & _ & HS) & Hu & Hs) Hseen. specialize (Hs Hseen).
  exists (o / (o + e)). split.
  - unfold occ_consistent, xt. cbn [prob_occ t_occupied t_empty]. change (dadd (Some o : XR) (Some e)) with (Some (o + e)).
    apply X_div. lra.
  - unfold in01. split; [apply Rle_mult_inv_pos; lra|]. apply Rmult_le_reg_r with (o + e); [lra|].
    unfold Rdiv. rewrite Rmult_assoc, Rinv_l by lra. lra.
Qed.

Lemma weak_run h : forall c (seen : Prop), weak_belief seen (tc_belief c) -> (seen -> prob_num (tc_cell c)) ->
  Forall weak_obs h -> (seen \/ Exists informative h) ->
  prob_num (tc_cell (fold_left (tcell_upd occ_consistent) h c)).
Proof.
  induction h as [|a h IH]; intros c seen Hb Hp Hw Hs; cbn [fold_left].
  - destruct Hs as [Hs|Hs]; auto. inversion Hs.
  - inversion Hw; subst. destruct (occ_valid (a_occ a)) eqn:Ev.
    + apply (IH _ (seen \/ informative a)); auto.
      * apply weak_upd; auto.
      * intros Hs'. assert (W := weak_upd seen c a Hb H1 Ev).
        assert (N := occ_consistent_num _ _ W Hs'). rewrite tcell_upd_cell by exact Ev.
        unfold prob_num, c_prob. cbn [c_occ]. exact N.
      * destruct Hs as [Hs|Hs]; auto. inversion Hs; subst; auto.
    + rewrite tcell_upd_invalid by exact Ev. apply (IH _ seen); auto.
      destruct Hs as [Hs|Hs]; auto. inversion Hs; subst; auto. destruct H0 as [H0 _]. congruence.
Qed.

(** *** discrepancy *)
Lemma tcell_discrepancy_ok c a : tbm_ok (tc_belief c) -> good_obs a ->
  exists d, tcell_discrepancy c a = Some d /\ in01 d.
Proof.
  intros Hc Ha. assert (Hb := aoo2tbm_ok a Ha). assert (Hj := conj_ok _ _ Hb Hc). unfold tcell_discrepancy.
  destruct Hb as (u1 & e1 & o1 & c1 & Eb & B1 & B2 & B3 & B4 & BS).
  destruct Hc as (u2 & e2 & o2 & c2 & Ec & C1 & C2 & C3 & C4 & CS).
  destruct Hj as (u & e & o & k & Ej & J1 & J2 & J3 & J4 & JS). rewrite Eb, Ec in *. rewrite Ej.
  assert (T : (2 <> 0)%R) by lra.
  exists ((u1 + u2) / 2 / 2 + (1 - (u1 + u2) / 2) * (k + Rabs (o1 - o2)) / 2). split.
  - unfold xt. cbn [t_unknown t_empty t_occupied t_conflict].
    change (dofZ 2 : XR) with (Some 2). change (dofZ 1 : XR) with (Some 1).
    change (dadd (Some u1 : XR) (Some u2)) with (Some (u1 + u2)). rewrite (X_div (u1 + u2)) by auto.
    change (dsub (Some 1 : XR) (Some ((u1 + u2) / 2))) with (Some (1 - (u1 + u2) / 2)).
    change (dabs (dsub (Some o1 : XR) (Some o2))) with (Some (Rabs (o1 - o2))).
    change (dadd (Some k : XR) (Some (Rabs (o1 - o2)))) with (Some (k + Rabs (o1 - o2))).
    change (dmul (Some (1 - (u1 + u2) / 2) : XR) (Some (k + Rabs (o1 - o2))))
      with (Some ((1 - (u1 + u2) / 2) * (k + Rabs (o1 - o2)))).
    rewrite !X_div by auto. reflexivity.
  - assert (D : 0 <= Rabs (o1 - o2) <= 1).
    { split; [apply Rabs_pos|]. apply Rabs_le. lra. }
    set (d := Rabs (o1 - o2)) in *. set (un := (u1 + u2) / 2).
    assert (U : 0 <= un <= 1) by (unfold un; lra).
    assert (0 <= (1 - un) * (k + d)) by (apply Rmult_le_pos; lra).
    assert ((1 - un) * (k + d) <= (1 - un) * 2) by (apply Rmult_le_compat_l; lra).
    unfold in01. lra.
Qed.
Lemma cred_discrepancy_ok c a : tbm_ok (tc_belief c) -> good_obs a ->
  exists d, cred_discrepancy c a = Some d /\ in01 d.
Proof.
  intros Hc Ha. assert (Hb := aoo2tbm_ok a Ha). assert (Hj := disj_ok _ _ Hb Hc). unfold cred_discrepancy.
  destruct Hj as (u & e & o & k & -> & J1 & J2 & J3 & J4 & JS).
  exists (1 - o). split; [reflexivity|]. unfold in01. lra.
Qed.
