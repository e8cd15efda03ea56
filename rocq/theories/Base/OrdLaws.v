(** Order laws of the double interface (they hold with NaN and infinities too). *)
From Coq Require Import Reals ZArith Lia Lra Bool.
From Flocq Require Import Core IEEE754.Binary IEEE754.Bits.
From Verif.Base Require Import Outcome Num F64Facts XReal.

Class OrdLaws {D : Type} (ops : DOps D) := {
  lt_irrefl_ : forall a : D, dlt a a = false;
  lt_trans_ : forall a b c : D, dlt a b = true -> dlt b c = true -> dlt a c = true;
  lt_le_trans_ : forall a b c : D, dlt a b = true -> dle b c = true -> dlt a c = true;
  le_lt_trans_ : forall a b c : D, dle a b = true -> dlt b c = true -> dlt a c = true;
  lt_le_ : forall a b : D, dlt a b = true -> dle a b = true;
  lt_cotrans_ : forall a b c : D, disnan b = false -> dlt a c = true -> dlt a b = true \/ dlt b c = true;
  lt_nan_ : forall a b : D, disnan a = true \/ disnan b = true -> dlt a b = false;
  le_not_lt_ : forall a b : D, disnan a = false -> disnan b = false -> dlt a b = false -> dle b a = true
}.

#[global] Instance R_OrdLaws : OrdLaws ROps.
Proof.
  constructor; cbn; intros; rewrite ?R_lt_true, ?R_le_true, ?R_lt_false in *; try lra.
Qed.

#[global] Instance X_OrdLaws : OrdLaws XOps.
Proof.
  constructor; cbn; intros; repeat match goal with x : XR |- _ => destruct x | x : option R |- _ => destruct x end;
    cbn in *; try discriminate; auto; rewrite ?R_lt_true, ?R_le_true, ?R_lt_false in *; try lra.
  all: try (destruct H; discriminate).
Qed.

(** the place of a non-NaN double on the extended real line *)
Definition F_key (x : F64) : option (Z * R) :=
  match x with
  | B754_nan _ _ _ _ _ => None
  | B754_infinity _ _ s => Some (if s then -1 else 1, 0%R)%Z
  | _ => Some (0%Z, F2R64 x)
  end.
Definition key_lt (a b : Z * R) : Prop := (fst a < fst b)%Z \/ (fst a = fst b /\ (snd a < snd b)%R).
Definition key_le (a b : Z * R) : Prop := (fst a < fst b)%Z \/ (fst a = fst b /\ (snd a <= snd b)%R).

Lemma F_lt_key x y : F_lt x y = true <-> match F_key x, F_key y with Some a, Some b => key_lt a b | _, _ => False end.
Proof.
  destruct (F_fin x) eqn:Fx, (F_fin y) eqn:Fy.
  - assert (H := F_lt_fin x y Fx Fy). cbn [dlt FOps] in H. rewrite H.
    assert (Kx : F_key x = Some (0%Z, F2R64 x)) by (destruct x; try discriminate; reflexivity).
    assert (Ky : F_key y = Some (0%Z, F2R64 y)) by (destruct y; try discriminate; reflexivity).
    rewrite Kx, Ky. unfold key_lt; cbn. split; [right; auto|intros [?|[_ ?]]; [lia|auto]].
  - assert (Kx : F_key x = Some (0%Z, F2R64 x)) by (destruct x; try discriminate; reflexivity). rewrite Kx.
    destruct x as [sx|sx|sx plx nx|sx mx ex bx], y as [sy|sy|sy ply ny|sy my ey by_]; try discriminate Fx; try discriminate Fy;
      try (destruct sx); try (destruct sy); cbn; unfold key_lt; cbn; split; intros; try discriminate; try tauto; try lia; try lra;
      try (left; lia); try (destruct H as [H|[H _]]; lia); reflexivity.
  - assert (Ky : F_key y = Some (0%Z, F2R64 y)) by (destruct y; try discriminate; reflexivity). rewrite Ky.
    destruct x as [sx|sx|sx plx nx|sx mx ex bx], y as [sy|sy|sy ply ny|sy my ey by_]; try discriminate Fx; try discriminate Fy;
      try (destruct sx); try (destruct sy); cbn; unfold key_lt; cbn; split; intros; try discriminate; try tauto; try lia; try lra;
      try (left; lia); try (destruct H as [H|[H _]]; lia); reflexivity.
  - destruct x as [sx|sx|sx plx nx|sx mx ex bx], y as [sy|sy|sy ply ny|sy my ey by_]; try discriminate Fx; try discriminate Fy;
      try (destruct sx); try (destruct sy); cbn; unfold key_lt; cbn; split; intros; try discriminate; try tauto; try lia; try lra;
      try (left; lia); try (destruct H as [H|[H H']]; [lia|lra]); try reflexivity.
Qed.

Lemma F_le_key x y : F_le x y = true <-> match F_key x, F_key y with Some a, Some b => key_le a b | _, _ => False end.
Proof.
  destruct (F_fin x) eqn:Fx, (F_fin y) eqn:Fy.
  - assert (H := F_le_fin x y Fx Fy). cbn [dle FOps] in H. rewrite H.
    assert (Kx : F_key x = Some (0%Z, F2R64 x)) by (destruct x; try discriminate; reflexivity).
    assert (Ky : F_key y = Some (0%Z, F2R64 y)) by (destruct y; try discriminate; reflexivity).
    rewrite Kx, Ky. unfold key_le; cbn. split; [right; auto|intros [?|[_ ?]]; [lia|auto]].
  - assert (Kx : F_key x = Some (0%Z, F2R64 x)) by (destruct x; try discriminate; reflexivity). rewrite Kx.
    destruct x as [sx|sx|sx plx nx|sx mx ex bx], y as [sy|sy|sy ply ny|sy my ey by_]; try discriminate Fx; try discriminate Fy;
      try (destruct sx); try (destruct sy); cbn; unfold key_le; cbn; split; intros; try discriminate; try tauto; try lia; try lra;
      try (left; lia); try (destruct H as [H|[H _]]; lia); reflexivity.
  - assert (Ky : F_key y = Some (0%Z, F2R64 y)) by (destruct y; try discriminate; reflexivity). rewrite Ky.
    destruct x as [sx|sx|sx plx nx|sx mx ex bx], y as [sy|sy|sy ply ny|sy my ey by_]; try discriminate Fx; try discriminate Fy;
      try (destruct sx); try (destruct sy); cbn; unfold key_le; cbn; split; intros; try discriminate; try tauto; try lia; try lra;
      try (left; lia); try (destruct H as [H|[H _]]; lia); reflexivity.
  - destruct x as [sx|sx|sx plx nx|sx mx ex bx], y as [sy|sy|sy ply ny|sy my ey by_]; try discriminate Fx; try discriminate Fy;
      try (destruct sx); try (destruct sy); cbn; unfold key_le; cbn; split; intros; try discriminate; try tauto; try lia; try lra;
      try (left; lia); try (right; split; [lia|lra]); try (destruct H as [H|[H H']]; [lia|lra]); try reflexivity.
    all: destruct H as [H|[H _]]; lia.
Qed.

#[global] Instance F_OrdLaws : OrdLaws FOps.
Proof.
  constructor; intros; cbn [dlt dle FOps] in *; rewrite ?F_lt_key, ?F_le_key in *.
  - destruct (F_lt a a) eqn:E; [|reflexivity]. apply F_lt_key in E. destruct (F_key a) as [k|]; [|tauto].
    unfold key_lt in E. destruct E as [?|[_ ?]]; [lia|lra].
  - destruct (F_key a), (F_key b), (F_key c); try tauto. unfold key_lt in *.
    destruct H as [H|[H H']], H0 as [H0|[H0 H0']]; try (left; lia). right. split; [lia|lra].
  - destruct (F_key a), (F_key b), (F_key c); try tauto. unfold key_lt, key_le in *.
    destruct H as [H|[H H']], H0 as [H0|[H0 H0']]; try (left; lia). right. split; [lia|lra].
  - destruct (F_key a), (F_key b), (F_key c); try tauto. unfold key_lt, key_le in *.
    destruct H as [H|[H H']], H0 as [H0|[H0 H0']]; try (left; lia). right. split; [lia|lra].
  - destruct (F_key a), (F_key b); try tauto. unfold key_lt, key_le in *.
    destruct H as [H|[H H']]; [left; lia|right; split; [lia|lra]].
  - destruct (F_key a) as [ka|] eqn:Ka, (F_key c) as [kc|] eqn:Kc; try tauto.
    destruct (F_key b) as [kb|] eqn:Kb; [|destruct b; cbn in *; discriminate].
    unfold key_lt in *. destruct (Z.lt_trichotomy (fst ka) (fst kb)) as [L|[L|L]]; [left; left; exact L| |].
    + destruct (Rlt_or_le (snd ka) (snd kb)) as [L'|L']; [left; right; auto|right].
      destruct H0 as [H0|[H0 H0']]; [left; lia|right; split; [lia|lra]].
    + right. left. destruct H0 as [H0|[H0 _]]; lia.
  - destruct (F_lt a b) eqn:E; [|reflexivity]. apply F_lt_key in E.
    destruct H as [H|H]; [destruct a|destruct b]; cbn in H; try discriminate; cbn in E; try tauto.
    destruct (F_key a); tauto.
  - destruct (F_key a) as [ka|] eqn:Ka; [|destruct a; cbn in *; discriminate].
    destruct (F_key b) as [kb|] eqn:Kb; [|destruct b; cbn in *; discriminate].
    assert (N : ~ key_lt ka kb).
    { intros C. assert (F_lt a b = true) by (apply F_lt_key; rewrite Ka, Kb; exact C). congruence. }
    unfold key_lt, key_le in *. destruct (Z.lt_trichotomy (fst kb) (fst ka)) as [L|[L|L]]; [left; exact L| |exfalso; apply N; left; exact L].
    right. split; [exact L|]. apply Rnot_lt_le. intros C. apply N. right. split; [lia|exact C].
Qed.
