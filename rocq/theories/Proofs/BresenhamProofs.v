(** DiscreteSegment2D yields a digital line (C01). *)
From Coq Require Import ZArith List Lia Bool.
From Verif.Base Require Import Outcome Num.
From Verif.Model Require Import Geometry.
From Verif.Spec Require Import GeometrySpec.
From Verif.Proofs Require Import ListFacts.
Import ListNotations.
Local Open Scope Z_scope.

Section Loop.
  Variables (yp : bool) (p0 s0 dp ds : Z).
  Let sp := if 0 <? dp then 1 else -1.
  Let ss := if 0 <? ds then 1 else -1.
  Hypothesis Hmaj : Z.abs ds <= Z.abs dp.

  Let mk (km : Z * Z) : coord :=
    let '(k, m) := km in
    if yp then (s0 + ss * m, p0 + sp * k) else (p0 + sp * k, s0 + ss * m).

  Let err (k m : Z) := k * (sp * ds) - m * (ss * dp).

  Let step_ok (a b : Z * Z) : Prop := fst b = fst a + 1 /\ (snd b = snd a \/ snd b = snd a + 1).

  Lemma loop_spec : forall fuel k m acc,
    0 <= k <= Z.abs dp -> 2 * Z.abs (err k m) <= Z.abs dp ->
    (Z.to_nat (Z.abs dp - k) < fuel)%nat ->
    exists kms,
      bresenham_loop fuel yp (p0 + dp) dp ds sp ss (p0 + sp * k) (s0 + ss * m) (err k m) acc
        = Ok (rev acc ++ map mk kms) /\
      nth_error kms 0 = Some (k, m) /\
      Z.of_nat (length kms) = Z.abs dp - k + 1 /\
      chain step_ok kms /\
      (forall i km, nth_error kms i = Some km ->
          fst km = k + Z.of_nat i /\ 2 * Z.abs (err (fst km) (snd km)) <= Z.abs dp).
  Proof.
    induction fuel as [|fuel IH]; intros k m acc Hk He Hf; [lia|].
    cbn [bresenham_loop].
    assert (Hsp : sp * Z.abs dp = dp) by (unfold sp; destruct (Z.ltb_spec 0 dp); lia).
    assert (Hsp1 : sp = 1 \/ sp = -1) by (unfold sp; destruct (0 <? dp); auto).
    destruct (Z.eqb_spec (p0 + sp * k) (p0 + dp)) as [E|E].
    - assert (Hk' : k = Z.abs dp) by (destruct Hsp1 as [-> | ->]; lia).
      exists [(k, m)]. split; [|split; [|split; [|split]]].
      + cbn [rev map app]. reflexivity.
      + reflexivity.
      + cbn [length]. lia.
      + apply chain_single.
      + intros [|i] km Hn; cbn in Hn; [|destruct i; discriminate].
        inversion Hn; subst; cbn. split; [lia|exact He].
    - assert (Hk' : k < Z.abs dp).
      { destruct (Z.eq_dec k (Z.abs dp)) as [->|]; [exfalso; apply E; rewrite Hsp; reflexivity|lia]. }
      set (e1 := err k m + sp * ds). set (e2 := e1 - ss * dp).
      assert (Hfuel : (Z.to_nat (Z.abs dp - (k + 1)) < fuel)%nat) by lia.
      assert (Hp : p0 + sp * k + sp = p0 + sp * (k + 1)) by ring.
      assert (Hs : s0 + ss * m + ss = s0 + ss * (m + 1)) by ring.
      assert (E1 : e1 = err (k + 1) m) by (unfold e1, err; ring).
      assert (E2 : e2 = err (k + 1) (m + 1)) by (unfold e2, e1, err; ring).
      destruct (Z.ltb_spec (Z.abs e1) (Z.abs e2)) as [Hc|Hc].
      + assert (Hb : 2 * Z.abs (err (k + 1) m) <= Z.abs dp).
        { rewrite <- E1. clear IH E1 E2. revert Hc He. unfold e2, e1.
          generalize (err k m). intros e. unfold sp, ss.
          destruct (Z.ltb_spec 0 dp), (Z.ltb_spec 0 ds); lia. }
        destruct (IH (k + 1) m (mk (k, m) :: acc) ltac:(lia) Hb Hfuel)
          as [kms [R1 [R2 [R3 [R4 R5]]]]].
        exists ((k, m) :: kms). rewrite Hp, E1. split; [|split; [|split; [|split]]].
        * etransitivity; [exact R1|]. cbn [map rev]. rewrite <- app_assoc. reflexivity.
        * reflexivity.
        * cbn [length]. lia.
        * destruct kms as [|y kms]; [discriminate|]. cbn in R2. inversion R2; subst y.
          apply chain_cons; [unfold step_ok; cbn; lia | exact R4].
        * intros [|i] km Hn; cbn in Hn.
          -- inversion Hn; subst; cbn. split; [lia|exact He].
          -- destruct (R5 i km Hn) as [Q1 Q2]. split; [lia|exact Q2].
      + assert (Hb : 2 * Z.abs (err (k + 1) (m + 1)) <= Z.abs dp).
        { rewrite <- E2. clear IH E1 E2. revert Hc He. unfold e2, e1.
          generalize (err k m). intros e. unfold sp, ss.
          destruct (Z.ltb_spec 0 dp), (Z.ltb_spec 0 ds); lia. }
        destruct (IH (k + 1) (m + 1) (mk (k, m) :: acc) ltac:(lia) Hb Hfuel)
          as [kms [R1 [R2 [R3 [R4 R5]]]]].
        exists ((k, m) :: kms). rewrite Hp, Hs, E2. split; [|split; [|split; [|split]]].
        * etransitivity; [exact R1|]. cbn [map rev]. rewrite <- app_assoc. reflexivity.
        * reflexivity.
        * cbn [length]. lia.
        * destruct kms as [|y kms]; [discriminate|]. cbn in R2. inversion R2; subst y.
          apply chain_cons; [unfold step_ok; cbn; lia | exact R4].
        * intros [|i] km Hn; cbn in Hn.
          -- inversion Hn; subst; cbn. split; [lia|exact He].
          -- destruct (R5 i km Hn) as [Q1 Q2]. split; [lia|exact Q2].
  Qed.

  Lemma loop_line : forall fuel, (Z.to_nat (Z.abs dp) < fuel)%nat ->
    exists kms,
      bresenham_loop fuel yp (p0 + dp) dp ds sp ss p0 s0 0 [] = Ok (map mk kms) /\
      nth_error kms 0 = Some (0, 0) /\
      Z.of_nat (length kms) = Z.abs dp + 1 /\
      nth_error kms (length kms - 1) = Some (Z.abs dp, Z.abs ds) /\
      chain step_ok kms /\
      (forall i km, nth_error kms i = Some km ->
          fst km = Z.of_nat i /\ 2 * Z.abs (err (fst km) (snd km)) <= Z.abs dp).
  Proof.
    intros fuel Hf.
    assert (E0 : err 0 0 = 0) by (unfold err; ring).
    destruct (loop_spec fuel 0 0 [] ltac:(lia)) as [kms [R1 [R2 [R3 [R4 R5]]]]].
    - rewrite E0; lia.
    - now rewrite Z.sub_0_r.
    - exists kms. rewrite E0, !Z.mul_0_r, !Z.add_0_r in R1.
      split; [exact R1|]. split; [exact R2|]. split; [lia|].
      split; [|split; [exact R4|exact R5]].
      destruct (nth_error kms (length kms - 1)) as [[k m]|] eqn:En.
      + destruct (R5 _ _ En) as [Q1 Q2]. cbn [fst snd] in Q1, Q2.
        assert (Hkk : k = Z.abs dp) by lia.
        destruct (Z.eq_dec (Z.abs dp) 0) as [Z0|NZ].
        { (* a single point *)
          replace (length kms - 1)%nat with 0%nat in En by lia.
          rewrite R2 in En. inversion En; subst. f_equal. f_equal; lia. }
        clear Q1 R5 R4 R3 R2 R1. subst k. f_equal. f_equal.
        unfold err in Q2.
        assert (Heq : Z.abs dp * (sp * ds) - m * (ss * dp) = sp * ss * Z.abs dp * (Z.abs ds - m)).
        { assert (A1 : sp * Z.abs dp = dp) by (unfold sp; destruct (Z.ltb_spec 0 dp); lia).
          assert (A2 : ss * Z.abs ds = ds) by (unfold ss; destruct (Z.ltb_spec 0 ds); lia).
          rewrite <- A1 at 2. rewrite <- A2 at 1. ring. }
        rewrite Heq in Q2.
        rewrite !Z.abs_mul in Q2.
        assert (As : Z.abs sp = 1) by (unfold sp; destruct (0 <? dp); reflexivity).
          assert (As' : Z.abs ss = 1) by (unfold ss; destruct (0 <? ds); reflexivity).
          rewrite As, As', Z.abs_involutive in Q2.
          assert (Z.abs (Z.abs ds - m) = 0); [|lia].
          assert (0 <= Z.abs (Z.abs ds - m)) by lia.
          revert Q2 H NZ. generalize (Z.abs (Z.abs ds - m)). intros t.
          assert (Hd := Z.abs_nonneg dp). revert Hd. generalize (Z.abs dp). clear. intros a Ha Q Ht Hn.
          destruct (Z.eq_dec t 0) as [|Ht']; [assumption|]. exfalso.
          assert (a * 1 <= a * t) by (apply Z.mul_le_mono_nonneg_l; lia). lia.
      + apply nth_error_None in En. destruct kms; cbn in *; [discriminate|lia].
  Qed.
End Loop.

Lemma map_nth_error_inv {A B} (f : A -> B) l i b :
  nth_error (map f l) i = Some b -> exists a, nth_error l i = Some a /\ b = f a.
Proof.
  rewrite nth_error_map. destruct (nth_error l i); cbn; intros H; [|discriminate].
  inversion H. eauto.
Qed.

Theorem discrete_segment_line : forall beg end_ : Z * Z,
  exists l, discrete_segment beg end_ = Ok l /\ digital_line beg end_ l.
Proof.
  intros [bx by_] [ex ey]. unfold discrete_segment, discrete_segment_fuel, coord_sub, cx, cy.
  cbn [fst snd].
  destruct (Z.ltb_spec (Z.abs (ex - bx)) (Z.abs (ey - by_))) as [H|H].
  - destruct (loop_line true by_ bx (ey - by_) (ex - bx) ltac:(lia)
               (S (Z.to_nat (Z.max (Z.abs (ex - bx)) (Z.abs (ey - by_))))) ltac:(lia))
      as [kms [R1 [R2 [R3 [R4 [R5 R6]]]]]].
    replace (by_ + (ey - by_)) with ey in R1 by lia.
    eexists; split; [exact R1|].
    assert (Hsy : (if 0 <? ey - by_ then 1 else -1) * Z.abs (ey - by_) = ey - by_)
      by (destruct (Z.ltb_spec 0 (ey - by_)); lia).
    assert (Hsx : (if 0 <? ex - bx then 1 else -1) * Z.abs (ex - bx) = ex - bx)
      by (destruct (Z.ltb_spec 0 (ex - bx)); lia).
    unfold digital_line, chebyshev, starts_with, ends_with; cbn [fst snd].
    rewrite map_length. split; [lia|]. split; [|split; [|split]].
    + rewrite nth_error_map, R2. cbn. f_equal. f_equal; ring.
    + rewrite nth_error_map, R4. cbn. f_equal. f_equal; lia.
    + eapply chain_map; [|exact R5]. intros [k m] [k' m']; cbn. intros [-> Hm].
      unfold neighbours8; cbn. 
      destruct (0 <? ey - by_), (0 <? ex - bx); lia.
    + intros i p Hp. apply map_nth_error_inv in Hp. destruct Hp as [[k m] [Hn ->]].
      destruct (R6 _ _ Hn) as [Q1 Q2]. cbn [fst snd] in Q1, Q2. cbn [fst snd].
      unfold moved_along_longer, within_half_cell; cbn [fst snd].
      destruct (Z.ltb_spec (Z.abs (ex - bx)) (Z.abs (ey - by_))); [|lia].
      split.
      * subst k. destruct (Z.ltb_spec 0 (ey - by_)).
        -- rewrite Z.sgn_pos by lia. reflexivity.
        -- rewrite Z.sgn_neg by lia. reflexivity.
      * etransitivity; [|exact Q2]. apply Z.eq_le_incl. f_equal.
        rewrite <- Z.abs_opp. f_equal. ring.
  - destruct (loop_line false bx by_ (ex - bx) (ey - by_) ltac:(lia)
               (S (Z.to_nat (Z.max (Z.abs (ex - bx)) (Z.abs (ey - by_))))) ltac:(lia))
      as [kms [R1 [R2 [R3 [R4 [R5 R6]]]]]].
    replace (bx + (ex - bx)) with ex in R1 by lia.
    eexists; split; [exact R1|].
    assert (Hsy : (if 0 <? ey - by_ then 1 else -1) * Z.abs (ey - by_) = ey - by_)
      by (destruct (Z.ltb_spec 0 (ey - by_)); lia).
    assert (Hsx : (if 0 <? ex - bx then 1 else -1) * Z.abs (ex - bx) = ex - bx)
      by (destruct (Z.ltb_spec 0 (ex - bx)); lia).
    unfold digital_line, chebyshev, starts_with, ends_with; cbn [fst snd].
    rewrite map_length. split; [lia|]. split; [|split; [|split]].
    + rewrite nth_error_map, R2. cbn. f_equal. f_equal; ring.
    + rewrite nth_error_map, R4. cbn. f_equal. f_equal; lia.
    + eapply chain_map; [|exact R5]. intros [k m] [k' m']; cbn. intros [-> Hm].
      unfold neighbours8; cbn.
      destruct (0 <? ey - by_), (0 <? ex - bx); lia.
    + intros i p Hp. apply map_nth_error_inv in Hp. destruct Hp as [[k m] [Hn ->]].
      destruct (R6 _ _ Hn) as [Q1 Q2]. cbn [fst snd] in Q1, Q2. cbn [fst snd].
      unfold moved_along_longer, within_half_cell; cbn [fst snd].
      destruct (Z.ltb_spec (Z.abs (ex - bx)) (Z.abs (ey - by_))); [lia|].
      split.
      * subst k. assert (Hi : (i < length kms)%nat) by (apply nth_error_Some; congruence).
        destruct (Z.ltb_spec 0 (ex - bx)).
        -- rewrite Z.sgn_pos by lia. reflexivity.
        -- destruct (Z.eq_dec (ex - bx) 0) as [E0|].
           ++ rewrite E0 in *. cbn in R3. replace i with 0%nat by lia. reflexivity.
           ++ rewrite Z.sgn_neg by lia. reflexivity.
      * etransitivity; [|exact Q2]. apply Z.eq_le_incl. f_equal.
        rewrite <- Z.abs_opp. f_equal. ring.
Qed.
