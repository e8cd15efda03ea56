(** The limits of GMapping's scan matching: what a particle went and drew since its last matching. *)
From Coq Require Import Reals ZArith List Lia Lra Bool.
From Verif.Base Require Import Outcome Num OrdLaws.
From Verif.Model Require Import MathUtils Geometry Sensor Histogram World ParticleFilter Gmapping RandomVars.
From Verif.Spec Require Import WorldSpec ParticleSpec TravelSpec ParticleScanSpec LimitSpec.
From Verif.Proofs Require Import HistProofs ParticleProofs WorldProofs ResampleProofs ParticleScanProofs ParticleIdleProofs.
Import ListNotations.
Local Open Scope R_scope.

Lemma driven_app ds d : driven (ds ++ [d]) = driven ds + sqrt (px d * px d + py d * py d).
Proof. induction ds as [|e ds IH]; cbn [driven fold_right app] in *; [lra|]. fold (driven (ds ++ [d])) (driven ds). rewrite IH. lra. Qed.
Lemma turned_app ds d : turned (ds ++ [d]) = turned ds + Rabs (pth d).
Proof. unfold turned. induction ds as [|e ds IH]; cbn [total fold_right app] in *; [lra|]. fold (total (@pth R) (ds ++ [d])) (total (@pth R) ds). rewrite IH. lra. Qed.
Lemma driven_pos ds : 0 <= driven ds.
Proof. induction ds as [|d ds IH]; cbn [driven fold_right]; [lra|]. fold (driven ds). assert (H := sqrt_pos (px d * px d + py d * py d)). lra. Qed.
Lemma turned_pos ds : 0 <= turned ds.
Proof. apply total_pos. Qed.
(** adding a step to the ways along the axes *)
Lemma way_step sx sy L a b l : 0 <= sx -> 0 <= sy -> 0 <= L -> 0 <= a -> 0 <= b -> 0 <= l -> a * a + b * b = l * l -> sx * sx + sy * sy <= L * L -> L <= sx + sy ->
  (sx + a) * (sx + a) + (sy + b) * (sy + b) <= (L + l) * (L + l) /\ L + l <= sx + a + (sy + b).
Proof.
  intros X Y HL A B Hl E H1 H2. assert (C : sx * a + sy * b <= L * l).
  { apply Rsqr_incr_0_var; [|nra]. unfold Rsqr. assert (0 <= (sx * b - sy * a) * (sx * b - sy * a)) by apply Rle_0_sqr.
    assert ((sx * sx + sy * sy) * (l * l) <= L * L * (l * l)) by (apply Rmult_le_compat_r; nra). nra. }
  split; [nra|]. assert (l <= a + b); [|lra]. apply Rsqr_incr_0_var; [|lra]. unfold Rsqr. nra.
Qed.

Section Limits.
  Context {S M SM G RV : Type} (rv_sample : RV -> G -> pose R * RV * G) (rv_copy : RV -> RV) (rv_zero : RV)
    (sm : SM -> S -> pose R -> M -> outcome (R * pose R * SM)) (adder : M -> pose R -> S -> R -> R -> outcome M).
  Local Notation gp := (gparticle R G RV).
  Local Notation gf := (gfilter R M SM G RV).
  Local Notation ptrs f := (pf_ptrs (gf_pf f)).
  Local Notation heap f := (pf_heap (gf_pf f)).
  Local Notation run := (gf_run cos sin rv_sample rv_copy rv_zero sm adder).
  (** normalisation, copying of others and the choice of a master leave this of a particle *)
  Definition carries (y z : gp) : Prop :=
    gp_pose z = gp_pose y /\ gp_raw z = gp_raw y /\ gp_first z = gp_first y /\ gp_engine z = gp_engine y /\ gp_map z = gp_map y /\
    gp_since z = gp_since y /\ gp_next z = gp_next y /\
    (gp_master z = gp_master y /\ gp_guess z = gp_guess y /\ gp_lim z = gp_lim y \/ gp_master z = true /\ gp_guess z = rv_zero /\ gp_lim z = rv_zero).
  Lemma carries_refl y : carries y y.
  Proof. unfold carries. auto 12. Qed.
  Lemma carries_weight y w z : carries y z -> carries y (gp_set_weight w z).
  Proof. exact (fun H => H). Qed.
  Lemma carries_mark y z : carries y z -> carries y (gp_mark_master rv_zero z).
  Proof. unfold carries. cbn. intuition. Qed.
  Definition observed (x y : gp) : Prop :=
    if gp_skips x then y = x else
    gp_since y = mkPose 0 0 0 /\ gp_master y = gp_master x /\ exists g, gp_next y = fst (fst (rv_sample (gp_lim x) g)) /\ gp_lim y = snd (fst (rv_sample (gp_lim x) g)).
  Lemma observe_observed maps k x s maps' k' y : gp_observe rv_sample sm adder maps k x s = Ok (maps', k', y) -> observed x y.
  Proof.
    unfold gp_observe, observed. destruct (gp_skips x); [intros E; injection E as <- <- <-; reflexivity|].
    cbv zeta. set (x1 := if gp_first x then x else _). intros E.
    assert (P1 : gp_master x1 = gp_master x /\ gp_lim x1 = gp_lim x).
    { unfold x1. destruct (gp_first x) eqn:Q; [auto|]. destruct (rv_sample (gp_guess x) (gp_engine x)) as [[n gu] g]. cbn in *. auto. }
    destruct P1 as (P1 & P3). clearbody x1. destruct (nth_error maps (gp_map x1)) as [m|]; [|discriminate].
    apply bind_Ok_inv in E as ([[prob d] k1] & _ & E). apply bind_Ok_inv in E as ([maps1 p1] & E2 & E).
    assert (P4 : gp_master p1 = gp_master x1 /\ gp_lim p1 = gp_lim x1).
    { destruct (_ || _)%bool in E2; [apply bind_Ok_inv in E2 as (m1 & _ & E2)|]; injection E2 as <- <-; cbn; auto. }
    destruct P4 as (P4 & P6). unfold gp_reset_sm_delta, gp_set_weight in E. cbn in E. rewrite P6, P3 in E.
    assert (W : exists g, rv_sample (gp_lim x) (gp_engine p1) = rv_sample (gp_lim x) g) by eauto. destruct W as [g0 W].
    destruct (rv_sample (gp_lim x) (gp_engine p1)) as [[nx lm] g] in E, W. injection E as <- <- <-. cbn. split; [reflexivity|]. split; [congruence|]. exists g0. rewrite <- W. auto.
  Qed.
  Lemma each_at s ptrs : forall maps k h maps' k' h' p x, NoDup ptrs -> In p ptrs -> nth_error h p = Some x ->
    gf_observe_each rv_sample sm adder maps k h ptrs s = Ok (maps', k', h') -> exists y, nth_error h' p = Some y /\ observed x y.
  Proof.
    assert (Out : forall ptrs maps k h maps' k' h' p, ~ In p ptrs -> gf_observe_each rv_sample sm adder maps k h ptrs s = Ok (maps', k', h') -> nth_error h' p = nth_error h p).
    { clear. intros ptrs. induction ptrs as [|q ptrs IH]; intros maps k h maps' k' h' p I E; cbn [gf_observe_each] in E; [injection E as <- <- <-; reflexivity|].
      apply bind_Ok_inv in E as (x0 & Ex & E). apply bind_Ok_inv in E as ([[maps1 k1] y] & Ey & E). unfold deref in Ex. destruct (nth_error h q) as [z|] eqn:Nq; [|discriminate].
      assert (B : (q < length h)%nat) by (apply nth_error_Some; congruence). rewrite (IH _ _ _ _ _ _ p (fun H => I (or_intror H)) E), upd_nth by exact B. destruct (Nat.eqb_spec p q) as [->|]; [elim I; now left|reflexivity]. }
    induction ptrs as [|q ptrs IH]; intros maps k h maps' k' h' p x ND I N E; [destruct I|]. inversion ND as [|? ? Hn ND']; subst.
    cbn [gf_observe_each] in E. apply bind_Ok_inv in E as (x0 & Ex & E). apply bind_Ok_inv in E as ([[maps1 k1] y] & Ey & E).
    unfold deref in Ex. destruct (nth_error h q) as [z|] eqn:Nq; [|discriminate]. injection Ex as ->. assert (B : (q < length h)%nat) by (apply nth_error_Some; congruence).
    destruct I as [->|I].
    - rewrite N in Nq. injection Nq as <-. exists y. rewrite (Out _ _ _ _ _ _ _ _ Hn E), upd_nth, Nat.eqb_refl, N by exact B. split; [reflexivity|]. eapply observe_observed; eauto.
    - eapply (IH maps1 k1 (upd h q (fun _ => y)) maps' k' h' p x ND' I); [|exact E]. rewrite upd_nth by exact B. destruct (Nat.eqb_spec p q) as [->|]; [contradiction|exact N].
  Qed.
  Lemma each_upd (f : gp -> gp) ptrs : forall h h' p x, NoDup ptrs -> In p ptrs -> nth_error h p = Some x -> gf_each h ptrs f = Ok h' -> nth_error h' p = Some (f x).
  Proof.
    assert (Out : forall ptrs h h' p, ~ In p ptrs -> gf_each h ptrs f = Ok h' -> nth_error h' p = nth_error h p).
    { clear. intros ptrs. induction ptrs as [|q ptrs IH]; intros h h' p I E; cbn [gf_each] in E; [injection E as <-; reflexivity|].
      apply bind_Ok_inv in E as (x0 & Ex & E). unfold deref in Ex. destruct (nth_error h q) as [z|] eqn:Nq; [|discriminate].
      assert (B : (q < length h)%nat) by (apply nth_error_Some; congruence). rewrite (IH _ _ p (fun H => I (or_intror H)) E), upd_nth by exact B. destruct (Nat.eqb_spec p q) as [->|]; [elim I; now left|reflexivity]. }
    induction ptrs as [|q ptrs IH]; intros h h' p x ND I N E; [destruct I|]. inversion ND as [|? ? Hn ND']; subst.
    cbn [gf_each] in E. apply bind_Ok_inv in E as (x0 & Ex & E). unfold deref in Ex. destruct (nth_error h q) as [z|] eqn:Nq; [|discriminate]. assert (B : (q < length h)%nat) by (apply nth_error_Some; congruence).
    destruct I as [->|I].
    - rewrite (Out _ _ _ _ Hn E), upd_nth, Nat.eqb_refl, N by exact B. reflexivity.
    - eapply (IH (upd h q f) h' p x ND' I); [|exact E]. rewrite upd_nth by exact B. destruct (Nat.eqb_spec p q) as [->|]; [contradiction|exact N].
  Qed.
  (** the copies among the particles taken *)
  Lemma take_copies old : forall inds (h : list gp) seen h' ps, take_particles (gp_duplicate (D := R) rv_copy) h old inds seen = Ok (h', ps) -> (forall p, In p old -> (p < length h)%nat) ->
    (exists t, h' = h ++ t) /\ forall q, In q ps -> In q old \/ (length h <= q)%nat /\ exists p x, In p old /\ nth_error h p = Some x /\ nth_error h' q = Some (gp_duplicate rv_copy x).
  Proof.
    induction inds as [|i inds IH]; intros h seen h' ps E B; cbn [take_particles] in E; [injection E as <- <-; split; [exists []; now rewrite app_nil_r|intros q []]|].
    destruct (nth_error old i) as [p|] eqn:No; [|discriminate]. assert (I := nth_error_In _ _ No). destruct (existsb _ _).
    - apply bind_Ok_inv in E as (x & Ex & E). apply bind_Ok_inv in E as ([h1 ps1] & E & E'). injection E' as <- <-.
      assert (Nx : nth_error h p = Some x) by (unfold deref in Ex; destruct (nth_error h p); [congruence|discriminate]).
      destruct (IH _ _ _ _ E) as ((t & ->) & H). { intros r Hr. rewrite app_length. apply B in Hr. lia. }
      split; [exists (gp_duplicate rv_copy x :: t); now rewrite <- app_assoc|]. intros q [<-|Hq].
      + right. split; [lia|]. exists p, x. split; [exact I|]. split; [exact Nx|]. rewrite <- app_assoc, nth_error_app2, Nat.sub_diag by lia. reflexivity.
      + apply H in Hq as [Hq|(Lq & p' & x' & I' & N' & Q)]; [now left|right]. rewrite app_length in Lq. split; [lia|]. exists p', x'. split; [exact I'|]. split; [|exact Q].
        rewrite nth_error_app1 in N' by (now apply B). exact N'.
    - apply bind_Ok_inv in E as ([h1 ps1] & E & E'). injection E' as <- <-. destruct (IH _ _ _ _ E B) as (T & H). split; [exact T|]. intros q [<-|Hq]; [left; exact I|auto].
  Qed.
  Lemma held_pair (A : gp) (p : list gp) q : held (carries A) p q -> exists z, nth_error p q = Some z /\ carries A z.
  Proof. exact (fun H => H). Qed.
  (** one scan, for one particle; and the particles that are new after it *)
  Lemma scan_object o (f : gf) s o' f' ns : run o f [EScan s] = Ok (o', f', ns) -> gf_inv 0 f ->
    (forall p x, In p (ptrs f) -> nth_error (heap f) p = Some x -> exists y z, observed (gp_update_robot_pose cos sin (ts_delta s) x) y /\ nth_error (heap f') p = Some z /\ carries y z) /\
    (forall q, In q (ptrs f') -> In q (ptrs f) \/ exists p, In p (ptrs f) /\ copy rv_copy f' p q).
  Proof.
    intros E (xs & HR & ND & _).
    unfold gf_run in E. cbn [world_run] in E. apply bind_Ok_inv in E as ([w n] & E & E'). injection E' as _ <- _. unfold handle_sensor_data in E.
    apply bind_Ok_inv in E as (f1 & E1 & E). apply bind_Ok_inv in E as (f2 & E2 & E). apply bind_Ok_inv in E as (pp & _ & E). apply bind_Ok_inv in E as (mm & _ & E). injection E as <- _.
    unfold gf_update in E1. apply bind_Ok_inv in E1 as (h1 & Eh & E1). injection E1 as <-.
    unfold gf_observe in E2. cbn [gf_trav gf_pf gf_maps gf_sm pf_ptrs pf_heap] in E2.
    apply bind_Ok_inv in E2 as ([[maps k'] h] & E3 & E2). apply bind_Ok_inv in E2 as (p1 & En & E2).
    assert (BH : forall p, In p (ptrs f) -> (p < length h)%nat).
    { intros p Hp. assert (N := refs_bound _ _ _ _ HR Hp). apply nth_error_Some in N. destruct (nth_error (heap f) p) as [x|] eqn:Nx; [|easy].
      assert (N1 := each_upd _ _ _ _ _ _ ND Hp Nx Eh). destruct (each_at _ _ _ _ _ _ _ _ _ _ ND Hp N1 E3) as (y & Ny & _). apply nth_error_Some. congruence. }
    assert (P1 : pf_ptrs p1 = ptrs f). { unfold normalize_weights in En. cbn [pf_ptrs pf_heap] in En. apply bind_Ok_inv in En as (? & _ & En). apply bind_Ok_inv in En as (? & _ & En). injection En as <-. reflexivity. }
    assert (L1 : length (pf_heap p1) = length h).
    { unfold normalize_weights in En. cbn [pf_ptrs pf_heap] in En. apply bind_Ok_inv in En as (zs & _ & En). apply bind_Ok_inv in En as (h2 & Es & En). injection En as <-. cbn [pf_heap].
      revert Es. clear. generalize (total_weight (map gp_weight zs) (dofZ 0)). intros tot. generalize (ptrs f). intros l. revert h. induction l as [|q l IH]; intros h E; cbn [scale_weights] in E; [injection E as <-; reflexivity|].
      apply bind_Ok_inv in E as (x & _ & E). apply IH in E. rewrite upd_length in E. exact E. }
    assert (Later : forall A p, held (carries A) (pf_heap p1) p -> held (carries A) (heap f2) p).
    { intros A p H. assert (W := carries_weight A). assert (Mk := carries_mark A).
      unfold gf_try_resample in E2. cbn [gf_trav gf_pf gf_maps gf_sm] in E2. destruct (_ && _)%bool in E2; [injection E2 as <-; exact H|].
      apply bind_Ok_inv in E2 as ([p2 b] & E4 & E2). assert (H3 : held (carries A) (pf_heap p2) p).
      { unfold pf_try_resample in E4. apply bind_Ok_inv in E4 as (zs & _ & E4). destruct (negb _); [injection E4 as <- _; exact H|].
        apply bind_Ok_inv in E4 as ([h3 q3] & E5 & E4). apply bind_Ok_inv in E4 as (f3 & E6 & E4). injection E4 as <- _. apply (held_normalize (carries A) W _ _ p) in E6; [exact E6|]. cbn [pf_heap].
        exact (held_take _ _ _ _ _ _ _ _ _ E5 H). }
      destruct b; cbn [negb] in E2; [|injection E2 as <-; exact H3]. apply bind_Ok_inv in E2 as (p3 & E5 & E2). injection E2 as <-. cbn [gf_pf].
      unfold gf_ensure_master in E5. apply bind_Ok_inv in E5 as (zs & _ & E5). destruct (existsb _ _); [injection E5 as <-; exact H3|].
      apply bind_Ok_inv in E5 as (q & _ & E5). injection E5 as <-. cbn [pf_heap]. apply held_upd; [exact Mk|exact H3]. }
    split.
    - intros p x Hp Nx. assert (N1 := each_upd _ _ _ _ _ _ ND Hp Nx Eh). destruct (each_at _ _ _ _ _ _ _ _ _ _ ND Hp N1 E3) as (y & Ny & Oy).
      exists y. assert (H : held (carries y) h p) by (exists y; split; [exact Ny|apply carries_refl]).
      apply (held_normalize (carries y) (carries_weight y) _ _ p En) in H. apply Later in H as (z & Nz & Cz). exists z. auto.
    - intros q Hq. assert (Q : In q (ptrs f) \/ exists p x, In p (ptrs f) /\ held (carries x) (heap f2) p /\ held (carries (gp_duplicate rv_copy x)) (heap f2) q).
      2: { destruct Q as [Q|(p & x & Hp & (a & Na & Ca) & (b & Nb & Cb))]; [left; exact Q|right]. exists p. split; [exact Hp|]. exists a, b. split; [exact Na|]. split; [exact Nb|].
           unfold carries in Ca, Cb. cbn in Cb. destruct Ca as (A1 & A2 & A3 & A4 & A5 & A6 & A7 & A8), Cb as (B1 & B2 & B3 & B4 & B5 & B6 & B7 & B8).
           rewrite B1, B2, B3, B4, B5, B6, B7, A1, A2, A3, A4, A5, A6, A7. do 7 (split; [reflexivity|]). intros Ma Mb.
           destruct A8 as [(_ & A8 & A9)|(A8 & _)]; [|congruence]. destruct B8 as [(_ & B8 & B9)|(B8 & _)]; [|congruence]. rewrite A8, A9, B8, B9. auto. }
      unfold gf_try_resample in E2. cbn [gf_trav gf_pf gf_maps gf_sm] in E2. destruct (_ && _)%bool in E2; [injection E2 as <-; left; cbn [gf_pf] in Hq; rewrite P1 in Hq; exact Hq|].
      apply bind_Ok_inv in E2 as ([p2 b] & E4 & E2).
      assert (Same : forall f3, gf_ensure_master rv_zero p2 = Ok f3 -> pf_ptrs f3 = pf_ptrs p2 /\ forall A r, held (carries A) (pf_heap p2) r -> held (carries A) (pf_heap f3) r).
      { intros f3 Ee. unfold gf_ensure_master in Ee. apply bind_Ok_inv in Ee as (zs & _ & Ee). destruct (existsb _ _); [injection Ee as <-; auto|].
        apply bind_Ok_inv in Ee as (kk & _ & Ee). injection Ee as <-. cbn [pf_ptrs pf_heap]. split; [reflexivity|]. intros A r Hr. apply held_upd; [exact (carries_mark A)|exact Hr]. }
      unfold pf_try_resample in E4. apply bind_Ok_inv in E4 as (zs & _ & E4). destruct (negb _).
      + injection E4 as <- <-. cbn [negb] in E2. injection E2 as <-. left. cbn [gf_pf] in Hq. rewrite P1 in Hq. exact Hq.
      + apply bind_Ok_inv in E4 as ([h3 q3] & E5 & E4). apply bind_Ok_inv in E4 as (f3 & E6 & E4). injection E4 as <- <-. cbn [negb] in E2. apply bind_Ok_inv in E2 as (f4 & E7 & E2). injection E2 as <-. cbn [gf_pf] in *.
        destruct (Same _ E7) as [S1 S2]. rewrite S1 in Hq.
        assert (P3 : pf_ptrs f3 = q3). { unfold normalize_weights in E6. cbn [pf_ptrs pf_heap] in E6. apply bind_Ok_inv in E6 as (? & _ & E6). apply bind_Ok_inv in E6 as (? & _ & E6). injection E6 as <-. reflexivity. }
        rewrite P3 in Hq. rewrite P1 in E5. destruct (take_copies _ _ _ _ _ _ E5) as ((t & Ht) & TC). { intros r Hr. rewrite L1. apply BH. exact Hr. }
        apply TC in Hq as [Hq|(_ & p & x & Hp & Nx & Nq)]; [left; exact Hq|right]. exists p, x. split; [exact Hp|]. split.
        * apply S2. apply (held_normalize (carries x) (carries_weight x) _ _ p E6). cbn [pf_heap]. exists x. split; [|apply carries_refl]. rewrite Ht, nth_error_app1; [exact Nx|]. apply nth_error_Some. congruence.
        * apply S2. apply (held_normalize (carries _) (carries_weight _) _ _ q E6). cbn [pf_heap]. eexists. split; [exact Nq|apply carries_refl].
  Qed.

  (** ** the invariant *)
  Variables (guess lim : RV) (box : pose R -> Prop) (Good Zero : RV -> Prop).
  Hypothesis GS : forall z g, Good z -> box (fst (fst (rv_sample z g))) /\ Good (snd (fst (rv_sample z g))).
  Hypothesis GC : forall z, Good z -> Good (rv_copy z).
  Hypothesis G0 : Good lim.
  Hypothesis ZS : forall z g, Zero z -> fst (fst (rv_sample z g)) = mkPose 0 0 0 /\ Zero (snd (fst (rv_sample z g))).
  Hypothesis ZC : forall z, Zero z -> Zero (rv_copy z).
  Hypothesis Z0 : Zero rv_zero.
  Local Notation since := (since rv_sample rv_copy rv_zero sm adder guess lim).
  Definition went (x : gp) (ds : list (pose R)) : Prop :=
    let t := gp_since x in 0 <= px t /\ 0 <= py t /\ px t * px t + py t * py t <= driven ds * driven ds /\ driven ds <= px t + py t /\ pth t = turned ds.
  Definition draws (x : gp) (m : bool) : Prop :=
    (box (gp_next x) \/ m = true /\ gp_next x = mkPose 0 0 0) /\ (Good (gp_lim x) \/ m = true /\ Zero (gp_lim x)).
  Lemma went_update x ds d : went x ds -> went (gp_update_robot_pose cos sin d x) (ds ++ [d]).
  Proof.
    intros (A & B & C & D & E). unfold went, gp_update_robot_pose. cbv zeta. cbn [gp_since gp_move]. set (th := pth (pose_sub (gp_pose x) (gp_raw x))).
    unfold pose_add, delta_abs. cbn [px py pth dadd dabs ROps]. rewrite driven_app, turned_app, E.
    set (a := Rabs _). set (b := Rabs _) at 1. set (l := sqrt _).
    assert (Ha : 0 <= a) by apply Rabs_pos. assert (Hb : 0 <= b) by apply Rabs_pos. assert (Hl : 0 <= l) by apply sqrt_pos.
    assert (Q : a * a + b * b = l * l).
    { unfold l. rewrite sqrt_sqrt by nra. unfold a, b. rewrite <- !Rabs_mult, !Rabs_right by (apply Rle_ge, Rle_0_sqr). cbn [dadd dsub dmul ROps].
      assert (T := sin2_cos2 th). unfold Rsqr in T. nra. }
    destruct (way_step _ _ _ _ _ _ A B (driven_pos ds) Ha Hb Hl Q C D) as [W1 W2]. split; [lra|]. split; [lra|]. split; [exact W1|]. split; [exact W2|lra].
  Qed.
  Definition some_lim (x : gp) : Prop := Good (gp_lim x) \/ Zero (gp_lim x).
  Lemma some_run h o f o' f' ns : run o f h = Ok (o', f', ns) -> Forall some_lim (heap f) -> Forall some_lim (heap f').
  Proof.
    apply (all_run cos sin rv_sample rv_copy rv_zero sm adder some_lim).
    - intros w x H. exact H.
    - intros x [H|H]; [left; now apply GC|right; now apply ZC].
    - intros x _. right. exact Z0.
    - intros d x H. exact H.
    - intros s maps k x maps' k' y E H. apply observe_observed in E. unfold observed in E. destruct (gp_skips x); [subst; exact H|]. destruct E as (_ & _ & g & _ & E). unfold some_lim. rewrite E.
      destruct H as [H|H]; [left; now apply GS|right; now apply ZS].
  Qed.
  Lemma since_inv f p ds m : since f p ds m -> gf_inv 0 f /\ Forall some_lim (heap f) /\ exists x, nth_error (heap f) p = Some x /\ went x ds /\ draws x m /\ (gp_master x = true -> m = true).
  Proof.
    induction 1 as [seeds m0 k0 n f p E I|f s f' p ds m H IH I (o & o' & ns & E) A|f s f' p ds m H IH I (o & o' & ns & E) A|f s f' p q ds m H IH I (o & o' & ns & E) Iq Nq C].
    - assert (Hn : (0 < n)%nat).
      { destruct n; [|lia]. unfold gf_new in E. cbn in E. discriminate E. }
      destruct (gf_new_inv rv_sample rv_copy rv_zero guess lim seeds m0 k0 n Hn) as (fz & Ez & II & _). rewrite E in Ez. injection Ez as <-. split; [exact II|].
      assert (F : Forall (fun x => went x [] /\ draws x (gp_master x)) (heap f)).
      { unfold gf_new in E. apply bind_Ok_inv in E as (h1 & E1 & E). apply bind_Ok_inv in E as (q & _ & E). injection E as <-. cbn [gf_pf pf_heap].
        apply upd_Forall. 2: { intros x (W & (D1 & D2)). split; [exact W|]. split; [|right; auto]. destruct D1 as [D1|(_ & D1)]; [left; exact D1|right; auto]. }
        set (Q := fun x : gp => went x [] /\ box (gp_next x) /\ Good (gp_lim x)).
        assert (F1 : Forall Q h1).
        { apply (all_each Q gp_sample (pf_ptrs (pf_new gp_set_weight (fun i => gp_create rv_sample rv_copy guess lim 0 (seeds i)) n))) with (2 := E1); [intros x Hx; exact Hx|].
          unfold pf_new. cbn [pf_heap]. set (cr := fun i : nat => _). assert (Hc : forall w i, Q (gp_set_weight w (cr i))).
          { intros w i. unfold Q, cr, gp_create, gp_reset_sm_delta. cbn [gp_lim gp_engine]. assert (V := GS (rv_copy lim) (seeds i) (GC _ G0)). destruct (rv_sample _ _) as [[? ?] ?]. cbn in *. split; [|exact V]. unfold went. cbn. lra. }
          generalize (ddiv (D := R) (dofZ 1) (dofZ (Z.of_nat n))) 0%nat. clear - Hc. induction n as [|n IHn]; intros w i; cbn [pf_create]; [constructor|]. constructor; [apply Hc|apply IHn]. }
        eapply Forall_impl; [|exact F1]. intros x (W & B1 & B2). split; [exact W|]. split; left; assumption. }
      split; [eapply Forall_impl; [|exact F]; intros x (_ & _ & [D|(_ & D)]); [left|right]; exact D|].
      destruct II as (xs & HR & _). assert (N := refs_bound _ _ _ _ HR I). apply nth_error_Some in N. unfold is_master. destruct (nth_error (heap f) p) as [x|] eqn:Nx; [|easy].
      exists x. rewrite Forall_forall in F. destruct (F x (nth_error_In _ _ Nx)) as [W D]. auto.
    - destruct IH as (II & FL & x & Nx & W & (D1 & D2) & Mx). split; [eapply gf_run_inv; eauto|]. split; [eapply some_run; eauto|]. destruct (proj1 (scan_object _ _ _ _ _ _ E II) p x I Nx) as (y & z & Oy & Nz & Cz).
      destruct A as (x' & Nx' & A). rewrite Nx in Nx'. injection Nx' as <-. unfold observed in Oy. destruct (gp_skips _) eqn:Sk; [apply skips_short in Sk; contradiction|].
      destruct Oy as (O1 & O2 & g & O3 & O4). exists z. split; [exact Nz|]. destruct Cz as (_ & _ & _ & _ & _ & C6 & C7 & C8). unfold is_master. rewrite Nz.
      split; [unfold went; rewrite C6, O1; cbn; lra|]. split; [|intros ->; apply orb_true_r].
      change (gp_lim (gp_update_robot_pose cos sin (ts_delta s) x)) with (gp_lim x) in O3, O4. unfold draws. rewrite C7, O3.
      assert (C9 : gp_lim z = gp_lim y \/ gp_master z = true /\ gp_lim z = rv_zero) by tauto. rewrite O4 in C9.
      destruct D2 as [D2|(-> & D2)].
      + destruct (GS _ g D2) as [B1 B2]. split; [left; exact B1|]. destruct C9 as [->|(Mz & ->)]; [left; exact B2|right; rewrite Mz, orb_true_r; auto].
      + destruct (ZS _ g D2) as [B1 B2]. split; [right; auto|]. right. split; [reflexivity|]. destruct C9 as [->|(Mz & ->)]; auto.
    - destruct IH as (II & FL & x & Nx & W & (D1 & D2) & Mx). split; [eapply gf_run_inv; eauto|]. split; [eapply some_run; eauto|]. destruct (proj1 (scan_object _ _ _ _ _ _ E II) p x I Nx) as (y & z & Oy & Nz & Cz).
      unfold observed in Oy. destruct (gp_skips _) eqn:Sk.
      2: { elim A. exists x. split; [exact Nx|]. rewrite <- skips_short. congruence. }
      subst y. exists z. split; [exact Nz|]. destruct Cz as (_ & _ & _ & _ & _ & C6 & C7 & C8). unfold is_master. rewrite Nz.
      split; [unfold went; rewrite C6; exact (went_update x ds (ts_delta s) W)|]. split; [|intros ->; apply orb_true_r].
      unfold draws. rewrite C7. change (gp_next (gp_update_robot_pose cos sin (ts_delta s) x)) with (gp_next x). split; [destruct D1 as [D1|(-> & D1)]; auto|].
      destruct C8 as [(_ & _ & ->)|(Mz & _ & ->)]; [|right; rewrite Mz, orb_true_r; auto]. change (gp_lim (gp_update_robot_pose cos sin (ts_delta s) x)) with (gp_lim x). destruct D2 as [D2|(-> & D2)]; auto.
    - destruct IH as (II & FL & x & Nx & W & (D1 & D2) & Mx). split; [exact II|]. split; [exact FL|]. destruct C as (x' & y & Nx' & Ny & _ & _ & _ & _ & _ & C6 & C7 & C8). rewrite Nx in Nx'. injection Nx' as <-.
      exists y. split; [exact Ny|]. unfold is_master. rewrite Ny. split; [unfold went; rewrite C6; exact W|]. split; [|intros ->; apply orb_true_r]. unfold draws. rewrite C7. split; [destruct D1 as [D1|(-> & D1)]; auto|].
      rewrite Forall_forall in FL. assert (Ly := FL y (nth_error_In _ _ Ny)). destruct (gp_master y) eqn:My; [rewrite orb_true_r; destruct Ly; auto|].
      destruct m; [destruct Ly; auto|]. destruct (gp_master x) eqn:Mx'; [discriminate (Mx eq_refl)|]. destruct (C8 eq_refl eq_refl) as [_ ->]. destruct D2 as [D2|(D2 & _)]; [left; now apply GC|discriminate].
  Qed.
  (** every particle of a reachable filter has such a way *)
  Lemma every_particle seeds m0 k0 n f0 : gf_new rv_sample rv_copy rv_zero guess lim seeds m0 k0 n = Ok f0 -> forall h o o' f ns, run o f0 h = Ok (o', f, ns) ->
    forall p, In p (ptrs f) -> exists ds m, since f p ds m.
  Proof.
    intros E0 h. assert (Hn : (0 < n)%nat) by (destruct n; [unfold gf_new in E0; cbn in E0; discriminate E0|lia]).
    destruct (gf_new_inv rv_sample rv_copy rv_zero guess lim seeds m0 k0 n Hn) as (fz & Ez & I0 & _). rewrite E0 in Ez. injection Ez as <-.
    induction h as [|e h IH] using rev_ind; intros o o' f ns E p Hp.
    - unfold gf_run in E. cbn [world_run] in E. injection E as <- <- <-. eexists [], _. eapply since_new; eauto.
    - unfold gf_run in E. apply world_run_app in E as (o1 & f1 & n1 & n2 & E1 & E2 & _). assert (IH1 := IH _ _ _ _ E1).
      assert (I1 : gf_inv 0 f1) by (eapply gf_run_inv; [exact I0|exact E1]).
      destruct e as [id|id|id|s]; try (cbn [world_run] in E2; injection E2 as <- <- <-; exact (IH1 p Hp)).
      assert (SC : scans rv_sample rv_copy rv_zero sm adder f1 s f) by (unfold scans, gf_run; eauto).
      assert (Old : forall r, In r (ptrs f1) -> exists ds m, since f r ds m).
      { intros r Hr. destruct (IH1 r Hr) as (ds & m & H). destruct (since_inv _ _ _ _ H) as (_ & _ & x & Nx & _).
        destruct (gp_skips (gp_update_robot_pose cos sin (ts_delta s) x)) eqn:Sk.
        - eexists _, _. eapply since_passed; eauto. intros (x' & Nx' & A). rewrite Nx in Nx'. injection Nx' as <-. apply skips_short in Sk. contradiction.
        - eexists _, _. eapply since_asked; eauto. exists x. split; [exact Nx|]. rewrite <- skips_short. congruence. }
      destruct (in_dec Nat.eq_dec p (ptrs f1)) as [Hi|Hi]; [exact (Old p Hi)|].
      destruct (proj2 (scan_object _ _ _ _ _ _ E2 I1) p Hp) as [Hp'|(r & Hr & C)]; [contradiction|]. destruct (Old r Hr) as (ds & m & H). eexists _, _. eapply since_copy; eauto.
  Qed.
  (** what is left of a particle after its odometry, against any box of limits *)
  Lemma next_scan f (s : tr_scan R (S * (nat -> R))) p ds m : since f p ds m -> exists x, nth_error (heap f) p = Some x /\ (asked f s p <-> ~ short_way (gp_update_robot_pose cos sin (ts_delta s) x)) /\
    went (gp_update_robot_pose cos sin (ts_delta s) x) (ds ++ [ts_delta s]) /\ (box (gp_next x) \/ m = true /\ gp_next x = mkPose 0 0 0).
  Proof.
    intros H. destruct (since_inv _ _ _ _ H) as (_ & _ & x & Nx & W & (D1 & _) & _). exists x. split; [exact Nx|]. split; [|split; [now apply went_update|exact D1]].
    split; [intros (x' & Nx' & A); rewrite Nx in Nx'; injection Nx' as <-; exact A|intros A; exists x; auto].
  Qed.
End Limits.
