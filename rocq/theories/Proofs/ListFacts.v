(** Generic list lemmas. *)
From Coq Require Import ZArith List Lia Arith.
From Verif.Spec Require Import GeometrySpec.
Import ListNotations.

Lemma chain_nil {A} (P : A -> A -> Prop) : chain P [].
Proof. intros i a b H; destruct i; discriminate. Qed.
Lemma chain_single {A} (P : A -> A -> Prop) x : chain P [x].
Proof. intros i a b _ H; destruct i; simpl in H; [discriminate|]. destruct i; discriminate. Qed.
Lemma chain_cons {A} (P : A -> A -> Prop) x y l :
  P x y -> chain P (y :: l) -> chain P (x :: y :: l).
Proof.
  intros Hxy Hc i a b Ha Hb. destruct i as [|i]; simpl in *.
  - congruence.
  - eapply Hc; eauto.
Qed.
Lemma chain_cons_inv {A} (P : A -> A -> Prop) x l : chain P (x :: l) -> chain P l.
Proof. intros H i a b Ha Hb. apply (H (S i) a b); assumption. Qed.
Lemma chain_cons2_inv {A} (P : A -> A -> Prop) x y l : chain P (x :: y :: l) -> P x y.
Proof. intros H. apply (H 0%nat x y); reflexivity. Qed.

Lemma chain_map {A B} (P : A -> A -> Prop) (Q : B -> B -> Prop) (f : A -> B) l :
  (forall a b, P a b -> Q (f a) (f b)) -> chain P l -> chain Q (map f l).
Proof.
  intros Hf Hc i a b Ha Hb. rewrite nth_error_map in Ha, Hb.
  destruct (nth_error l i) eqn:Ea; [|discriminate].
  destruct (nth_error l (S i)) eqn:Eb; [|discriminate].
  simpl in *. inversion Ha; inversion Hb; subst. apply Hf. eapply Hc; eauto.
Qed.

Lemma ends_with_cons {A} (a x y : A) l : ends_with a (y :: l) -> ends_with a (x :: y :: l).
Proof.
  unfold ends_with. simpl. rewrite Nat.sub_0_r. auto.
Qed.
Lemma ends_with_app {A} (a : A) l : ends_with a (l ++ [a]).
Proof.
  unfold ends_with. rewrite app_length. simpl.
  rewrite nth_error_app2 by lia. replace (length l + 1 - 1 - length l)%nat with 0%nat by lia. reflexivity.
Qed.

Lemma nth_error_ext {A} (l l' : list A) :
  (forall i, nth_error l i = nth_error l' i) -> l = l'.
Proof.
  revert l'. induction l as [|x l IH]; intros [|y l'] H.
  - reflexivity.
  - specialize (H 0%nat); discriminate.
  - specialize (H 0%nat); discriminate.
  - f_equal.
    + specialize (H 0%nat); simpl in H; congruence.
    + apply IH. intros i. apply (H (S i)).
Qed.
