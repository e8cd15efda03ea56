(** The invariant of all cells of a map under construction (C94). *)
From Coq Require Import Reals ZArith List Bool Lia Lra.
From Flocq Require Import Core IEEE754.BinarySingleNaN IEEE754.Binary IEEE754.Bits.
From Verif.Base Require Import Outcome Num F64Facts.
From Verif.Model Require Import MathUtils Geometry Grid PlainMap LazyMap Cells Sensor ScanAdder Histogram AreaEstimator Pyramid World Config WholeSlam.
From Verif.Spec Require Import CellSpec WholeSpec.
From Verif.Proofs Require Import CellProofs TbmFloatProofs.
Import ListNotations.
Local Open Scope R_scope.

(** ** cells *)
Definition good (c : acell F64) : Prop :=
  reports_well c /\
  match c with
  | CAffine _ => True
  | CMean c => exists k, counter (m_n c) k
  | CConsistent c | CEven c | CCredibilist c => fok c
  | CGmapping c => gm_ok c /\ (c_unknown (g_cell c) = true <-> g_tries c = 0%Z)
  end.
Definition nan01 (x : F64) : Prop := disnan x = true \/ f01 x.
Definition occ_ok (o : occup F64) : Prop := nan01 (prob_occ o) /\ nan01 (est_quality o).

Lemma good_upd c a : good c -> fgood_obs a -> good (acell_upd c a).
Proof.
  intros [R I] Ha. destruct (occ_valid (a_occ a)) eqn:V.
  2:{ replace (acell_upd c a) with c; [split; assumption|]. destruct c; cbn [acell_upd]; unfold affine_upd, mean_upd, tcell_upd, gm_upd; rewrite V; reflexivity. }
  assert (O1 : obs01 a) by (destruct Ha as [Ha|(A & _ & B)]; [left; assumption|right; split; assumption]).
  assert (P : forall c, ~ (exists g, c = CGmapping g) -> reports_well c -> ~ is_consistent c -> f01 (acell_prob c)).
  { clear. intros c G H NC. unfold reports_well in H. destruct (c_unknown (acell_base c)).
    - destruct H as [F E]. split; [exact F|]. rewrite E. unfold unknown_value, in01. destruct c; try lra. exfalso. apply G. eauto.
    - destruct H as [H|[H _]]; [exact H|contradiction]. }
  assert (NG : forall c, match c with CGmapping _ => False | _ => True end -> ~ (exists g : gmcell F64, c = CGmapping g)) by (intros ? H [g ->]; exact H).
  assert (NC : forall c, match c with CConsistent _ => False | _ => True end -> ~ is_consistent c) by (intros ? H [g ->]; exact H).
  destruct c as [c|c|c|c|c|c]; cbn [acell_upd].
  - split; [|exact I]. unfold reports_well. cbn [acell_base]. replace (c_unknown (affine_upd c a)) with false by (unfold affine_upd; rewrite V; reflexivity).
    left. unfold acell_prob. cbn [acell_base]. apply (affine_run01 [a] c); [|auto].
    apply (P (CAffine c) (NG (CAffine c) Logic.I) R (NC (CAffine c) Logic.I)).
  - destruct I as [k K]. assert (F : f01 (c_prob (m_cell c))) by apply (P (CMean c) (NG (CMean c) Logic.I) R (NC (CMean c) Logic.I)). split.
    + unfold reports_well. cbn [acell_base]. replace (c_unknown (m_cell (mean_upd c a))) with false by (unfold mean_upd; rewrite V; reflexivity).
      left. unfold acell_prob. cbn [acell_base]. apply (mean_run01 [a] c k F K). auto.
    + unfold mean_upd. rewrite V. cbn [m_n]. destruct (counter_incr _ _ K) as (k' & K' & _). exists (k' + 1)%Z. exact K'.
  - assert (F : fok (tcell_upd occ_consistent c a)) by (apply tcell_upd_tok; assumption). split; [|exact F].
    unfold reports_well. cbn [acell_base]. replace (c_unknown (tc_cell (tcell_upd occ_consistent c a))) with false by (unfold tcell_upd; rewrite V; reflexivity).
    assert (Ep : acell_prob (CConsistent (tcell_upd occ_consistent c a)) = prob_occ (occ_consistent (tc_belief (tcell_upd occ_consistent c a)))).
    { unfold acell_prob, tcell_upd. cbn [acell_base]. rewrite V. cbn [tc_cell tc_belief]. unfold c_prob. cbn [c_occ]. reflexivity. }
    rewrite Ep. destruct (consistent_prob _ (proj1 F)) as [Z|Q]; [|left; exact Q].
    right. split; [exists (tcell_upd occ_consistent c a); reflexivity|]. apply consistent_nan; [apply F|exact Z].
  - assert (F : fok (tcell_upd occ_unknown_even c a)) by (apply tcell_upd_tok; assumption). split; [|exact F].
    unfold reports_well. cbn [acell_base]. replace (c_unknown (tc_cell (tcell_upd occ_unknown_even c a))) with false by (unfold tcell_upd; rewrite V; reflexivity).
    left. apply (even_run [a] c I); [|auto]. apply (P (CEven c) (NG (CEven c) Logic.I) R (NC (CEven c) Logic.I)).
  - assert (F : fok (tcell_upd occ_unknown_even c a)) by (apply tcell_upd_tok; assumption). split; [|exact F].
    unfold reports_well. cbn [acell_base]. replace (c_unknown (tc_cell (tcell_upd occ_unknown_even c a))) with false by (unfold tcell_upd; rewrite V; reflexivity).
    left. apply (even_run [a] c I); [|auto]. apply (P (CCredibilist c) (NG (CCredibilist c) Logic.I) R (NC (CCredibilist c) Logic.I)).
  - destruct I as [G U]. destruct (Z_lt_ge_dec (g_tries c + 1) (2 ^ 31)) as [L|L].
    + destruct (gm_upd_ok c a G ltac:(destruct Ha as [Ha|(A & _ & B)]; [left; assumption|right; assumption]) L) as (c' & E & G' & _ & Pos & _).
      rewrite E. specialize (Pos V).
      assert (U' : c_unknown (g_cell c') = false).
      { revert E. unfold gm_upd. rewrite V. destruct (int_incr (g_tries c)) as [t| | |]; cbn [bind]; try discriminate.
        destruct (dle _ _).
        - intros E. match type of E with Ok ?x = _ => assert (X : c' = x) by congruence end. rewrite X. reflexivity.
        - destruct (int_incr (g_hits c)) as [t'| | |]; cbn [bind]; try discriminate.
          intros E. match type of E with Ok ?x = _ => assert (X : c' = x) by congruence end. rewrite X. reflexivity. }
      split.
      * unfold reports_well. cbn [acell_base]. rewrite U'. left. unfold acell_prob. cbn [acell_base]. destruct G' as [_ [[Z _]|[_ H]]]; [lia|exact H].
      * split; [exact G'|]. rewrite U'. split; [discriminate|lia].
    + assert (E : gm_upd c a = UB).
      { unfold gm_upd. rewrite V. assert (X : int_incr (g_tries c) = UB); [|rewrite X; reflexivity].
        unfold int_incr. destruct (in_int (g_tries c + 1)) eqn:Q; [|reflexivity]. unfold in_int, int_min, int_max in Q. apply andb_prop in Q as [_ Q]. apply Z.leb_le in Q. lia. }
      rewrite E. split; [exact R|split; assumption].
Qed.

Lemma good_new c : prototype c -> good c.
Proof.
  assert (H2 : F_fin (dhalf : F64) = true /\ F2R64 (dhalf : F64) = / 2) by (destruct F_half; split; assumption).
  intros [m| |].
  - destruct m; (split; [exact H2|]); cbn [new_cell].
    + apply default_tok.
    + apply default_tok.
    + exact Logic.I.
    + exists 0%Z. apply mean_new01.
  - split; [|apply default_tok].
    change (F_fin (dadd (dofZ 0) (dmul dhalf (dofZ 1)) : F64) = true /\ F2R64 (dadd (dofZ 0) (dmul dhalf (dofZ 1))) = / 2).
    destruct (F_half_mul (dofZ 1) f01_1) as [A B]. rewrite (proj1 F_one) in B.
    destruct (fnn_add 1 1 (dofZ 0) (dmul dhalf (dofZ 1)) ltac:(lia) ltac:(lia) f01_0 A) as [[F _] E]. split; [exact F|].
    rewrite E, (proj1 F_zero), B. replace (1 / 2) with (/ 2) by lra. rewrite (rnd_id (/ 2)) by apply fmt_half. rewrite Rplus_0_l. apply rnd_id, fmt_half.
  - split.
    + unfold reports_well. cbn. change (F_fin (dofZ (-1) : F64) = true /\ F2R64 (dofZ (-1) : F64) = -1). destruct (F_ofZ_correct (-1)) as [E F]; [lia|]. split; assumption.
    + split; [apply gm_new_ok|]. cbn. split; reflexivity.
Qed.
