From Coq Require Import Ascii String ZArith List Bool Lia Reals Lra.
From Verif.Base Require Import Outcome Num.
From Verif.Model Require Import MathUtils Geometry Properties DataGen.
From Verif.Spec Require Import DataGenSpec.
From Verif.Proofs Require Import DataGenProofs.
Import ListNotations.

Lemma leb_IZR a b : (IZR a <= IZR b)%R <-> (a <= b)%Z.
Proof. split; [apply le_IZR | apply IZR_le]. Qed.
Lemma cecum_free_space_spec (w h : Z) (s : side) : (1 <= w)%Z -> (1 <= h)%Z ->
  exists r : rect R, cecum_free_space w h (side_bound s) = Ok [r] /\
    (2 < w -> 2 < h -> forall col row,
      (left r <= IZR col /\ IZR (col + 1) <= right r /\ bot r <= IZR (- row) /\ IZR (- row + 1) <= top r)%R <->
      0 <= col < w /\ 0 <= row < h /\ wall w h s col row = false)%Z /\
    (w <= 2 \/ h <= 2 -> bot r = top r /\ left r = right r)%Z.
Proof.
  intros Hw Hh. unfold cecum_free_space.
  destruct (Z.leb_spec h 2) as [H2|H2]; [|destruct (Z.leb_spec w 2) as [W2|W2]]; cbn [orb].
  1,2: unfold mk_rect; replace (dle (dofZ 0) (dofZ 0)) with true by (symmetry; apply R_le_true; cbn; lra); cbn [andb bind];
    eexists; split; [reflexivity|]; split; [intros; lia|]; intros _; split; reflexivity.
  destruct s; cbn [side_bound]; unfold mk_rect;
    (match goal with |- context [dle ?a ?b] => replace (dle a b) with true by (symmetry; apply R_le_true; apply IZR_le; lia) end);
    (match goal with |- context [dle ?a ?b] => replace (dle a b) with true by (symmetry; apply R_le_true; apply IZR_le; lia) end); cbn [andb bind];
    (eexists; split; [reflexivity|]); (split; [|intros; lia]); intros _ _ col row; cbn [left right bot top dofZ ROps]; rewrite !leb_IZR; unfold wall;
    rewrite !orb_false_iff, !Z.eqb_neq; lia.
Qed.
