From Coq Require Import ZArith List Bool Lia Reals Lra.
From Verif.Base Require Import Outcome Num.
From Verif.Model Require Import MathUtils Geometry Sensor Grid Cells AreaEstimator DataGen.
From Verif.Spec Require Import DataGenSpec LaserScanGenSpec.
Import ListNotations.

Lemma bind_Ok {A B} (x : outcome A) (f : A -> outcome B) v : bind x f = Ok v -> exists a, x = Ok a /\ f a = Ok v.
Proof. destruct x; cbn; intros E; try discriminate. eauto. Qed.
Lemma assert_Ok b u : assert_ b = Ok u -> b = true.
Proof. destruct b; cbn; [auto|discriminate]. Qed.

Section Gen.
  Context {D : Type} {ops : DOps D}.
  Variables (dcos dsin : D -> D) (datan2 : D -> D -> D) (mpi : D) (scale : D) (occ : coord -> outcome D).
  Variables (lsp : ls_params D) (pose : pose D) (thr : D).

  Notation passed dir := (passed_over scale occ pose thr dir).

  Lemma beam_point_spec a dir ids r : beam_point dcos dsin datan2 scale occ pose thr a dir ids = Ok r ->
    match r with
    | None => forall c, In c ids -> passed dir c
    | Some p => exists range before id after o b i j,
        p = mkSP true range a (dofZ 1) true /\
        ids = before ++ id :: after /\ (forall c, In c before -> passed dir c) /\
        occ id = Ok o /\ dlt o thr = false /\
        world_cell_bounds scale id = Ok b /\ ray_intersections b (mkRay (pose_point pose) dir) = Ok [i; j] /\
        world_to_cell scale (sp_move_origin_angle dcos dsin datan2 (pose_point pose) (pth pose) p) = Ok id
    end.
  Proof.
    revert r. induction ids as [|id ids IH]; intros r E.
    { cbn in E. injection E as <-. intros c []. }
    cbn [beam_point] in E. apply bind_Ok in E as (o & Eo & E).
    assert (STEP : passed dir id -> beam_point dcos dsin datan2 scale occ pose thr a dir ids = Ok r ->
      match r with None => forall c, In c (id :: ids) -> passed dir c
      | Some p => exists range before id' after o b i j, p = mkSP true range a (dofZ 1) true /\ id :: ids = before ++ id' :: after /\ (forall c, In c before -> passed dir c) /\
        occ id' = Ok o /\ dlt o thr = false /\ world_cell_bounds scale id' = Ok b /\ ray_intersections b (mkRay (pose_point pose) dir) = Ok [i; j] /\
        world_to_cell scale (sp_move_origin_angle dcos dsin datan2 (pose_point pose) (pth pose) p) = Ok id' end).
    { intros HP E'. apply IH in E'. destruct r as [p|].
      - destruct E' as (range & before & id' & after & o' & b & i & j & H1 & H2 & H3 & H4). exists range, (id :: before), id', after, o', b, i, j.
        split; [exact H1|]. split; [cbn; f_equal; exact H2|]. split; [intros c [<-|Hc]; auto|exact H4].
      - intros c [<-|Hc]; auto. }
    destruct (dlt o thr) eqn:El.
    { apply STEP; [|exact E]. exists o. auto. }
    apply bind_Ok in E as (b & Eb & E). apply bind_Ok in E as (inters & Ei & E).
    destruct inters as [|i [|j [|k l]]]; try discriminate E.
    - apply STEP; [|exact E]. exists o. split; [exact Eo|]. right. exists b, i. auto.
    - apply bind_Ok in E as (c & Ec & E). apply bind_Ok in E as (u & Ea & E). injection E as <-. apply assert_Ok in Ea.
      unfold coord_eqb in Ea. apply andb_true_iff in Ea as [Ex Ey]. apply Z.eqb_eq in Ex, Ey.
      assert (Eid : c = id) by (destruct c, id; unfold cx, cy in *; cbn in *; congruence). subst c.
      eexists _, [], id, ids, o, b, i, j. split; [reflexivity|]. split; [reflexivity|]. split; [intros c []|].
      split; [exact Eo|]. split; [exact El|]. split; [exact Eb|]. split; [exact Ei|]. exact Ec.
  Qed.

  Lemma step_from_shift (a inc : D) k : step_from a inc (S k) = step_from (dadd a inc) inc k.
  Proof. induction k as [|k IH]; [reflexivity|]. cbn [step_from] in *. rewrite IH. reflexivity. Qed.

  Lemma beams_spec fuel a pts : beams dcos dsin datan2 mpi scale occ lsp pose thr fuel a = Ok pts ->
    exists outs, (forall k r, nth_error outs k = Some r -> beam dcos dsin datan2 scale occ lsp pose thr (step_from a (ls_inc lsp) k) = Ok r /\
                    in_sector mpi (ls_hsector lsp) (step_from a (ls_inc lsp) k) = true) /\
      in_sector mpi (ls_hsector lsp) (step_from a (ls_inc lsp) (length outs)) = false /\ pts = somes outs.
  Proof.
    revert a pts. induction fuel as [|fuel IH]; intros a pts E.
    - cbn [beams] in E. exists []. cbn [length step_from somes]. split; [intros [|k] r Hk; discriminate|].
      unfold in_sector. destruct (dle a _); [|injection E as <-; auto]. destruct (dle (dmul _ _) _); [injection E as <-; auto|discriminate].
    - cbn [beams] in E.
      assert (STOP : in_sector mpi (ls_hsector lsp) a = false -> Ok [] = Ok pts -> exists outs, (forall k r, nth_error outs k = Some r -> beam dcos dsin datan2 scale occ lsp pose thr (step_from a (ls_inc lsp) k) = Ok r /\
                    in_sector mpi (ls_hsector lsp) (step_from a (ls_inc lsp) k) = true) /\
      in_sector mpi (ls_hsector lsp) (step_from a (ls_inc lsp) (length outs)) = false /\ pts = somes outs).
      { intros H1 H2. injection H2 as <-. exists []. split; [intros [|k] r Hk; discriminate|]. auto. }
      destruct (dle a (ls_hsector lsp)) eqn:E1; [|apply STOP; [unfold in_sector; rewrite E1; reflexivity|exact E]].
      destruct (dle (dmul (dofZ 2) mpi) (dadd (ls_hsector lsp) a)) eqn:E2; [apply STOP; [unfold in_sector; rewrite E1, E2; reflexivity|exact E]|].
      apply bind_Ok in E as (p & Ep & E). apply bind_Ok in E as (rest & Er & E). apply IH in Er. destruct Er as (outs & HO & HL & ->).
      exists (p :: outs). split.
      { intros [|k] r Hk; cbn [nth_error] in Hk; [|rewrite step_from_shift; apply HO; exact Hk]. injection Hk as <-. cbn [step_from]. split; [exact Ep|].
        unfold in_sector. rewrite E1, E2. reflexivity. }
      split; [cbn [length]; rewrite step_from_shift; exact HL|]. destruct p; injection E as <-; reflexivity.
  Qed.

  Lemma beams_complete outs : forall a fuel, (length outs <= fuel)%nat ->
    (forall k r, nth_error outs k = Some r -> beam dcos dsin datan2 scale occ lsp pose thr (step_from a (ls_inc lsp) k) = Ok r /\
                    in_sector mpi (ls_hsector lsp) (step_from a (ls_inc lsp) k) = true) ->
    in_sector mpi (ls_hsector lsp) (step_from a (ls_inc lsp) (length outs)) = false ->
    beams dcos dsin datan2 mpi scale occ lsp pose thr fuel a = Ok (somes outs).
  Proof.
    induction outs as [|r outs IH]; intros a fuel Hf HO HL.
    - cbn [length step_from] in HL. unfold in_sector in HL. destruct fuel; cbn [beams somes]; destruct (dle a _); cbn [andb] in HL; try reflexivity; destruct (dle _ _); try reflexivity; discriminate.
    - destruct fuel as [|fuel]; [cbn [length] in Hf; lia|]. cbn [beams].
      destruct (HO 0%nat r eq_refl) as [Hb Hs]. cbn [step_from] in Hb, Hs. unfold in_sector in Hs. apply andb_true_iff in Hs as [S1 S2]. rewrite S1. apply negb_true_iff in S2. rewrite S2, Hb. cbn [bind].
      rewrite (IH (dadd a (ls_inc lsp)) fuel).
      + cbn [bind somes]. destruct r; reflexivity.
      + cbn [length] in Hf. lia.
      + intros k r' Hk. specialize (HO (S k) r' Hk). rewrite step_from_shift in HO. exact HO.
      + cbn [length] in HL. rewrite step_from_shift in HL. exact HL.
  Qed.
End Gen.

Lemma somes_In {A} (l : list (option A)) x : In x (somes l) -> exists k, nth_error l k = Some (Some x).
Proof.
  induction l as [|o l IH]; cbn [somes]; [intros []|]. destruct o as [y|].
  - intros [<-|H]; [exists 0%nat; reflexivity|]. destruct (IH H) as [k Hk]. exists (S k). exact Hk.
  - intros H. destruct (IH H) as [k Hk]. exists (S k). exact Hk.
Qed.
Lemma step_from_R (a inc : R) k : step_from a inc k = (a + INR k * inc)%R.
Proof. induction k as [|k IH]; cbn [step_from]; [cbn; lra|]. rewrite IH, S_INR. cbn [dadd ROps]. ring. Qed.
Lemma in_sector_R (h a : R) : in_sector PI h a = true <-> (a <= h /\ h + a < 2 * PI)%R.
Proof.
  unfold in_sector. cbn [dle dmul dofZ dadd ROps]. rewrite andb_true_iff, negb_true_iff, R_le_true, R_le_false. lra.
Qed.
