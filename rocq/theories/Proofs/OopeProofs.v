(** The caching observation estimator of GMapping. *)
From Coq Require Import Reals ZArith List Bool Lia Lra.
From Flocq Require Import Core IEEE754.Binary IEEE754.Bits.
From Verif.Base Require Import Outcome Num F64Facts XReal OrdLaws.
From Verif.Model Require Import MathUtils Geometry Grid Cells GmappingOope.
Import ListNotations.
Local Open Scope Z_scope.

Lemma zseq_in lo n z : In z (zseq lo n) <-> lo <= z < lo + Z.max 0 n.
Proof.
  unfold zseq. rewrite in_map_iff. split.
  - intros (i & <- & I). apply in_seq in I. lia.
  - intros H. exists (Z.to_nat (z - lo)). split; [lia|]. apply in_seq. lia.
Qed.
Lemma window_in window d : 0 <= window -> In d (window_offsets window) <-> - window <= fst d <= window /\ - window <= snd d <= window.
Proof.
  intros Hw. unfold window_offsets. rewrite in_flat_map. split.
  - intros (x & Ix & I). apply in_map_iff in I. destruct I as (y & <- & Iy). apply zseq_in in Ix. apply zseq_in in Iy. cbn. lia.
  - intros [A B]. exists (fst d). split; [apply zseq_in; lia|]. apply in_map_iff. exists (snd d). split; [destruct d; reflexivity|]. apply zseq_in. lia.
Qed.

Section Generic.
  Context {D : Type} {ops : DOps D}.
  Variable dexp : D -> D.
  Variables (th : D) (window : Z).
  Hypothesis set_ : forall m sp a, deq (oope_window dexp th window m sp a) (dofZ (-1)) = false.

  Definition q_cell (q : gmap D * aoo D) : outcome coord := world_to_cell (gm_scale (fst q)) (a_obst (snd q)).
  Definition q_fresh (q : gmap D * aoo D) (sp : coord) : D := oope_window dexp th window (fst q) sp (snd q).

  Lemma coord_eqb_eq (a b : coord) : coord_eqb a b = true <-> a = b.
  Proof.
    unfold coord_eqb, cx, cy. destruct a as [a1 a2], b as [b1 b2]. cbn. rewrite andb_true_iff, !Z.eqb_eq. split; [intros [-> ->]; reflexivity|intros E; injection E; auto].
  Qed.
  (** one query in a state holding the answer of the previous one *)
  Lemma probability_spec st q p st' : oope_probability dexp th window st (fst q) (snd q) = Ok (p, st') ->
    exists sp, q_cell q = Ok sp /\ a_is_occ (snd q) = true /\ o_prob st' = p /\ o_coord st' = sp /\ (deq (o_prob st) (dofZ (-1)) = false -> deq p (dofZ (-1)) = false) /\
      deq p (dofZ (-1)) = false /\
      (deq (o_prob st) (dofZ (-1)) = false -> o_coord st = sp -> p = o_prob st) /\
      (deq (o_prob st) (dofZ (-1)) = true \/ o_coord st <> sp -> p = q_fresh q sp).
  Proof.
    unfold oope_probability, q_cell, q_fresh. destruct (a_is_occ (snd q)); cbn [assert_ bind]; [|discriminate].
    destruct (world_to_cell (gm_scale (fst q)) (a_obst (snd q))) as [sp| | |]; cbn [bind]; try discriminate.
    destruct (coord_eqb sp (o_coord st)) eqn:E; cbn [andb].
    - apply coord_eqb_eq in E. destruct (deq (o_prob st) (dofZ (-1))) eqn:Q; cbn [negb].
      + intros H. injection H as <- <-. exists sp. split; [reflexivity|]. split; [reflexivity|]. split; [reflexivity|]. split; [reflexivity|]. split; [intros; apply set_|].
        split; [apply set_|]. split; [discriminate|]. intros _. reflexivity.
      + intros H. injection H as <- <-. exists sp. split; [reflexivity|]. split; [reflexivity|]. split; [reflexivity|]. split; [auto|]. split; [auto|].
        split; [exact Q|]. split; [reflexivity|]. intros [X|X]; [discriminate X|congruence].
    - intros H. injection H as <- <-. exists sp. assert (N : o_coord st <> sp) by (intros X; symmetry in X; apply coord_eqb_eq in X; congruence).
      split; [reflexivity|]. split; [reflexivity|]. split; [reflexivity|]. split; [reflexivity|]. split; [intros; apply set_|]. split; [apply set_|].
      split; [intros _ X; contradiction|]. intros _. reflexivity.
  Qed.

  (** the answers to a history *)
  Lemma run_spec : forall qs st rs, oope_run dexp th window st qs = Ok rs ->
    length rs = length qs /\
    (forall i q, nth_error qs i = Some q -> exists sp, q_cell q = Ok sp) /\
    (forall q r, nth_error qs 0 = Some q -> nth_error rs 0 = Some r -> deq (o_prob st) (dofZ (-1)) = false -> q_cell q = Ok (o_coord st) -> r = o_prob st) /\
    (forall q sp r, nth_error qs 0 = Some q -> nth_error rs 0 = Some r -> q_cell q = Ok sp -> deq (o_prob st) (dofZ (-1)) = true \/ sp <> o_coord st -> r = q_fresh q sp) /\
    (forall i q0 q1 r0 r1, nth_error qs i = Some q0 -> nth_error qs (S i) = Some q1 -> nth_error rs i = Some r0 -> nth_error rs (S i) = Some r1 ->
       (q_cell q0 = q_cell q1 -> r1 = r0) /\ (q_cell q0 <> q_cell q1 -> forall sp, q_cell q1 = Ok sp -> r1 = q_fresh q1 sp)).
  Proof.
    induction qs as [|[m a] qs IH]; intros st rs E; cbn [oope_run] in E.
    - injection E as <-. split; [reflexivity|]. split; [intros [|i] q H; discriminate H|]. split; [intros q r H; discriminate H|].
      split; [intros q sp r H; discriminate H|]. intros [|i] q0 q1 r0 r1 H; discriminate H.
    - apply bind_Ok_inv in E. destruct E as ([p st'] & E1 & E). apply bind_Ok_inv in E. destruct E as (r & E2 & E). injection E as <-.
      destruct (probability_spec st (m, a) p st' E1) as (sp & Hsp & _ & Hp & Hc & _ & Hset & Hhit & Hmiss).
      destruct (IH st' r E2) as (IL & IC & IH0 & IF0 & IS). split; [cbn; congruence|]. split; [|split; [|split]].
      + intros [|i] q Hq; [injection Hq as <-; exists sp; exact Hsp|exact (IC i q Hq)].
      + intros q r0 Hq Hr Hs Hcell. injection Hq as <-. injection Hr as <-. rewrite Hsp in Hcell. injection Hcell as ->. apply Hhit; [exact Hs|reflexivity].
      + intros q sp' r0 Hq Hr Hcell Hd. injection Hq as <-. injection Hr as <-. rewrite Hsp in Hcell. injection Hcell as <-. apply Hmiss. destruct Hd as [X|X]; [left; exact X|right; congruence].
      + intros [|i] q0 q1 r0 r1 H0 H1 R0 R1.
        * cbn in H0, R0. injection H0 as <-. injection R0 as <-. cbn [nth_error] in H1, R1. split.
          -- intros Eq. rewrite <- Hp. apply (IH0 q1 r1); [exact H1|exact R1|rewrite Hp; exact Hset|]. rewrite <- Eq, Hsp, Hc. reflexivity.
          -- intros Ne sp' Hsp'. apply (IF0 q1 sp' r1 H1 R1 Hsp'). right. rewrite Hc. intros ->. apply Ne. rewrite Hsp, Hsp'. reflexivity.
        * exact (IS i q0 q1 r0 r1 H0 H1 R0 R1).
  Qed.
End Generic.

(** the freshly computed value is never the "unset" mark *)
Lemma window_gt {D} (ops : DOps D) (L : OrdLaws ops) dexp th window m sp a : dlt (dofZ (-1)) (dofZ 0) = true ->
  dlt (dofZ (-1)) (oope_window dexp th window m sp a) = true.
Proof.
  intros H. unfold oope_window. generalize (window_offsets window) as l. intros l. revert H. generalize (dofZ 0) at 1 2 as best.
  induction l as [|d l IH]; intros best H; [exact H|]. cbn [fold_left]. apply IH. unfold oope_step. destruct (dlt _ th); [exact H|].
  unfold dmax. destruct (dlt best _) eqn:E; [|exact H]. eapply lt_trans_; eassumption.
Qed.
Lemma window_set_R dexp th window m sp a : deq (oope_window (D := R) dexp th window m sp a) (dofZ (-1)) = false.
Proof.
  assert (H := window_gt ROps _ dexp th window m sp a). cbn in *. assert (H' : R_lt (-1) 0 = true) by (apply R_lt_true; lra). specialize (H H').
  apply R_lt_true in H. apply R_eq_false. intros X. rewrite X in H. lra.
Qed.
Lemma F_lt_neq (x y : F64) : dlt x y = true -> deq y x = false.
Proof.
  cbn. unfold F_lt, F_eq, b64_compare. rewrite (Bcompare_swap 53 1024 x y). destruct (Bcompare 53 1024 x y) as [[]|]; try discriminate; reflexivity.
Qed.
Lemma window_set_F dexp th window m sp a : deq (oope_window (D := F64) dexp th window m sp a) (dofZ (-1)) = false.
Proof. apply F_lt_neq. apply (window_gt FOps _). reflexivity. Qed.

(** over the reals, the value is the best agreement in the window *)
Local Open Scope R_scope.
Definition agreement (m : gmap R) (a : aoo R) (c : coord) : R :=
  exp (- (dist_sq (g_obst (gm_at m c)) (a_obst a)) / (5 / 100)).
Lemma agreement_eq m a c : 1 - gm_discrepancy exp (gm_at m c) a = agreement m a c.
Proof. unfold gm_discrepancy, agreement, gm_dist_variance, dlit. cbn [dsub dofZ ddiv dopp ROps]. ring. Qed.
Lemma fold_best m sp a th l best :
  let r := fold_left (oope_step exp th m sp a) l best in
  best <= r /\
  (forall d, In d l -> th <= c_prob (g_cell (gm_at m (coord_add sp d))) -> agreement m a (coord_add sp d) <= r) /\
  (r = best \/ exists d, In d l /\ th <= c_prob (g_cell (gm_at m (coord_add sp d))) /\ r = agreement m a (coord_add sp d)).
Proof.
  revert best. induction l as [|d l IH]; intros best; cbn zeta; cbn [fold_left].
  - split; [lra|]. split; [intros d []|left; reflexivity].
  - destruct (IH (oope_step exp th m sp a best d)) as (A & B & C). cbn zeta in *. set (r := fold_left (oope_step exp th m sp a) l (oope_step exp th m sp a best d)) in *.
    assert (St : oope_step exp th m sp a best d = best /\ c_prob (g_cell (gm_at m (coord_add sp d))) < th \/
                 th <= c_prob (g_cell (gm_at m (coord_add sp d))) /\ oope_step exp th m sp a best d = Rmax best (agreement m a (coord_add sp d))).
    { unfold oope_step. destruct (dlt (c_prob (g_cell (gm_at m (coord_add sp d)))) th) eqn:E.
      - left. split; [reflexivity|]. apply R_lt_true. exact E.
      - right. split; [apply R_lt_false; exact E|]. cbn [dofZ dsub ROps]. rewrite R_dmax, agreement_eq. reflexivity. }
    destruct St as [[St Lt]|[Ge St]].
    + rewrite St in A, C. split; [exact A|]. split.
      * intros d' [->|I] H; [lra|exact (B d' I H)].
      * destruct C as [C|(d' & I & H)]; [left; exact C|right; exists d'; split; [right; exact I|exact H]].
    + rewrite St in A, C. assert (M1 := Rmax_l best (agreement m a (coord_add sp d))). assert (M2 := Rmax_r best (agreement m a (coord_add sp d))). split; [lra|]. split.
      * intros d' [->|I] H; [lra|exact (B d' I H)].
      * destruct C as [C|(d' & I & H)].
        -- unfold Rmax in C. destruct (Rle_dec best (agreement m a (coord_add sp d))) as [L|L].
           ++ right. exists d. split; [left; reflexivity|]. split; [exact Ge|exact C].
           ++ left. exact C.
        -- right. exists d'. split; [right; exact I|exact H].
Qed.
