(** The structure of the levels: scales, sizes, choice of a level. *)
From Coq Require Import Reals ZArith List Lia Lra Bool.
From Flocq Require Import Core.
From Verif.Base Require Import Outcome Num OrdLaws EReal.
From Verif.Model Require Import MathUtils Geometry Grid Histogram Pyramid.
From Verif.Proofs Require Import GridProofs HistProofs PyramidProofs.
Import ListNotations.
Local Open Scope Z_scope.

(** ** powers of two *)
Lemma ge_pow_loop_stuck fuel i z : 1 <= i -> z <= 0 -> - 2 ^ 31 <= z -> (exists k, 0 <= k /\ z = - 2 ^ k * 2 ^ 31) \/ z = 0 -> forall p, ge_pow_loop fuel 2 i z = Ok p -> False.
Proof.
  intros Hi. revert z. induction fuel as [|fuel IH]; intros z Hz Hb Hk p; cbn [ge_pow_loop]; [discriminate|].
  destruct (Z.ltb_spec z i); [|lia]. assert (z = - 2 ^ 31 \/ z = 0) as [->| ->].
  { destruct Hk as [(k & K0 & ->)|]; [|auto]. left. assert (1 <= 2 ^ k) by (apply Z.pow_le_mono_r with (b := 0); lia). nia. }
  - change (wrap32 (- 2 ^ 31 * 2)) with 0. apply IH; auto; lia.
  - change (wrap32 (0 * 2)) with 0. apply IH; auto; lia.
Qed.
Lemma ge_pow_loop_Ok fuel i : 1 <= i -> forall e p, 0 <= e <= 30 -> (e = 0 \/ 2 ^ (e - 1) < i) ->
  ge_pow_loop fuel 2 i (2 ^ e) = Ok p -> exists e', e <= e' <= 30 /\ p = 2 ^ e' /\ i <= 2 ^ e' /\ (e' = 0 \/ 2 ^ (e' - 1) < i).
Proof.
  intros Hi. induction fuel as [|fuel IH]; intros e p He Hlo; cbn [ge_pow_loop]; [discriminate|].
  destruct (Z.ltb_spec (2 ^ e) i) as [H|H].
  - destruct (Z.eq_dec e 30) as [->|Ne].
    + change (wrap32 (2 ^ 30 * 2)) with (- 2 ^ 31). intros E. exfalso. apply (ge_pow_loop_stuck fuel i (- 2 ^ 31)) in E; auto; try lia. left. exists 0. lia.
    + replace (wrap32 (2 ^ e * 2)) with (2 ^ (e + 1)).
      * intros E. apply IH in E; [|lia|right; replace (e + 1 - 1) with e by lia; exact H]. destruct E as (e' & A & B). exists e'. split; [lia|exact B].
      * rewrite Z.pow_add_r, Z.pow_1_r by lia. unfold wrap32. assert (2 ^ e <= 2 ^ 29) by (apply Z.pow_le_mono_r; lia). assert (0 < 2 ^ e) by (apply Z.pow_pos_nonneg; lia).
        rewrite Z.mod_small by lia. destruct (Z.ltb_spec (2 ^ e * 2) (2 ^ 31)); lia.
  - intros E. injection E as <-. exists e. repeat split; auto; lia.
Qed.
Lemma ge_pow_Ok fuel i p : 1 <= i -> ge_pow fuel 2 i = Ok p -> exists e, 0 <= e <= 30 /\ p = 2 ^ e /\ i <= 2 ^ e /\ (e = 0 \/ 2 ^ (e - 1) < i).
Proof. intros Hi E. apply (ge_pow_loop_Ok fuel i Hi 0 p) in E; [exact E|lia|auto]. Qed.
Lemma ge_pow_total i : 1 <= i <= 2 ^ 30 -> exists p, ge_pow 33 2 i = Ok p.
Proof.
  intros Hi. unfold ge_pow. cut (forall (fuel : nat) e, 0 <= e <= 30 -> 31 - e <= Z.of_nat fuel -> exists p, ge_pow_loop fuel 2 i (2 ^ e) = Ok p).
  { intros H. apply (H 33%nat 0); lia. }
  induction fuel as [|fuel IH]; intros e He Hf; [lia|]. cbn [ge_pow_loop]. destruct (Z.ltb_spec (2 ^ e) i) as [H|H]; [|eauto].
  assert (e <> 30) by (intros ->; lia). replace (wrap32 (2 ^ e * 2)) with (2 ^ (e + 1)); [apply IH; lia|].
  rewrite Z.pow_add_r, Z.pow_1_r by lia. unfold wrap32. assert (2 ^ e <= 2 ^ 29) by (apply Z.pow_le_mono_r; lia). assert (0 < 2 ^ e) by (apply Z.pow_pos_nonneg; lia).
  rewrite Z.mod_small by lia. destruct (Z.ltb_spec (2 ^ e * 2) (2 ^ 31)); lia.
Qed.

Lemma nth_mid {A} (ls new : list A) K k : (K <= length ls)%nat ->
  nth_error (firstn K ls ++ new ++ skipn K ls) k =
    if (k <? K)%nat then nth_error ls k else if (k <? K + length new)%nat then nth_error new (k - K) else nth_error ls (k - length new).
Proof.
  intros H. assert (LF : length (firstn K ls) = K) by (rewrite firstn_length; lia).
  assert (D : forall j, nth_error ls j = if (j <? K)%nat then nth_error (firstn K ls) j else nth_error (skipn K ls) (j - K)).
  { intros j. rewrite <- (firstn_skipn K ls) at 1. destruct (Nat.ltb_spec j K); [apply nth_error_app1; lia|]. rewrite nth_error_app2 by lia. now rewrite LF. }
  rewrite !D. destruct (Nat.ltb_spec k K); [apply nth_error_app1; lia|]. rewrite nth_error_app2 by lia. rewrite LF.
  destruct (Nat.ltb_spec k (K + length new)); [apply nth_error_app1; lia|]. rewrite nth_error_app2 by lia.
  destruct (Nat.ltb_spec (k - length new) K); [lia|]. f_equal. lia.
Qed.

Section Shape.
  Context {C : Type}.
  Variables (proto : C) (s : R).
  Local Notation lev := (level ER C).
  Definition dbl (k : nat) : R := (s * IZR (2 ^ Z.of_nat k))%R.
  Lemma dbl_S k : dbl (Datatypes.S k) = (dbl k * 2)%R.
  Proof. unfold dbl. rewrite Nat2Z.inj_succ, Z.pow_succ_r, mult_IZR by lia. ring. Qed.
  Lemma dbl_0 : dbl 0 = s.
  Proof. unfold dbl. change (2 ^ Z.of_nat 0) with 1. lra. Qed.
  Lemma dbl_lt : (0 < s)%R -> forall i j, (i < j)%nat -> (dbl i < dbl j)%R.
  Proof.
    intros Hs i j Hij. unfold dbl. apply Rmult_lt_compat_l; [exact Hs|]. apply IZR_lt. apply Z.pow_lt_mono_r; lia.
  Qed.

  (** what the added levels are: [side a m] is a side of the m-th of them *)
  Definition side (w : Z) (m : nat) : Z := Z.max 2 (w / 2 ^ Z.of_nat m).
  Lemma new_levels_spec fuel : forall a b sc ls, 0 <= a -> 0 <= b -> new_levels proto fuel (2 ^ a) (2 ^ b) sc = Ok ls ->
    Z.of_nat (length ls) = Z.max 0 (Z.max a b - 1) /\
    forall r, sc = EFin r -> forall m l, nth_error ls m = Some l -> lv_w l = side (2 ^ a) (Datatypes.S m) /\ lv_h l = side (2 ^ b) (Datatypes.S m) /\
      lv_scale l = EFin (r * IZR (2 ^ Z.of_nat (Datatypes.S m))) /\ lv_origin l = default_origin (lv_w l) (lv_h l) /\ forall q, lv_cells l q = proto.
  Proof.
    induction fuel as [|fuel IH]; intros a b sc ls Ha Hb; cbn [new_levels]; destruct ((2 <? 2 ^ a) || (2 <? 2 ^ b)) eqn:T; try discriminate.
    1,3: intros E; injection E as <-; apply orb_false_iff in T as [T1 T2]; apply Z.ltb_ge in T1; apply Z.ltb_ge in T2; (split; [|intros ? ? []; discriminate]).
    1,2: assert (a <= 1) by (destruct (Z_le_gt_dec a 1); [lia|assert (2 ^ 2 <= 2 ^ a) by (apply Z.pow_le_mono_r; lia); lia]);
         assert (b <= 1) by (destruct (Z_le_gt_dec b 1); [lia|assert (2 ^ 2 <= 2 ^ b) by (apply Z.pow_le_mono_r; lia); lia]); cbn; lia.
    intros E. apply bind_Ok_inv in E as (l & E & E'). injection E' as <-.
    assert (Q : forall x, 0 <= x -> Z.max 2 (Z.quot (2 ^ x) 2) = 2 ^ (Z.max 1 (x - 1))).
    { intros x Hx. rewrite Z.quot_div_nonneg by (try lia; apply Z.pow_nonneg; lia). destruct (Z.eq_dec x 0) as [->|]; [reflexivity|]. destruct (Z.eq_dec x 1) as [->|]; [reflexivity|].
      replace x with (Z.succ (x - 1)) at 1 by lia. rewrite Z.pow_succ_r, Z.mul_comm, Z.div_mul by lia.
      assert (2 ^ 1 <= 2 ^ (x - 1)) by (apply Z.pow_le_mono_r; lia). rewrite (Z.max_r 1) by lia. lia. }
    rewrite !Q in E by assumption. rewrite !Q by assumption. apply IH in E; [|lia..]. destruct E as [L H].
    assert (1 < Z.max a b).
    { apply orb_true_iff in T as [T|T]; apply Z.ltb_lt in T.
      - destruct (Z_le_gt_dec a 1); [|lia]. assert (2 ^ a <= 2 ^ 1) by (apply Z.pow_le_mono_r; lia). lia.
      - destruct (Z_le_gt_dec b 1); [|lia]. assert (2 ^ b <= 2 ^ 1) by (apply Z.pow_le_mono_r; lia). lia. }
    split; [cbn [length]; lia|]. intros r -> m l0 N.
    assert (SD : forall x m, 0 <= x -> side (2 ^ Z.max 1 (x - 1)) m = side (2 ^ x) (Datatypes.S m)).
    { clear N m L H IH. intros x m Hx. unfold side. rewrite Nat2Z.inj_succ, Z.pow_succ_r by lia. rewrite <- Z.div_div by (try lia; apply Z.pow_pos_nonneg; lia).
      destruct (Z_le_gt_dec x 1) as [H|H].
      - replace (Z.max 1 (x - 1)) with 1 by lia.
        assert (B : forall y, 0 <= y <= 2 -> Z.max 2 (y / 2 ^ Z.of_nat m) = 2).
        { intros y Hy. assert (0 < 2 ^ Z.of_nat m) by (apply Z.pow_pos_nonneg; lia). assert (y / 2 ^ Z.of_nat m <= y) by (apply Z.div_le_upper_bound; nia). lia. }
        rewrite (B (2 ^ 1)) by lia. symmetry. apply B. assert (x = 0 \/ x = 1) as [-> | ->] by lia; cbn; lia.
      - rewrite (Z.max_r 1) by lia. replace x with (Z.succ (x - 1)) at 2 by lia. rewrite Z.pow_succ_r, (Z.mul_comm 2), Z.div_mul by lia. reflexivity. }
    destruct m as [|m]; cbn [nth_error] in N.
    - injection N as <-. cbn [new_level lv_w lv_h lv_scale lv_cells]. repeat split.
      + rewrite <- SD by exact Ha. unfold side. change (2 ^ Z.of_nat 0) with 1. rewrite Z.div_1_r. assert (2 ^ 1 <= 2 ^ Z.max 1 (a - 1)) by (apply Z.pow_le_mono_r; lia). lia.
      + rewrite <- SD by exact Hb. unfold side. change (2 ^ Z.of_nat 0) with 1. rewrite Z.div_1_r. assert (2 ^ 1 <= 2 ^ Z.max 1 (b - 1)) by (apply Z.pow_le_mono_r; lia). lia.
    - destruct (H (r * IZR 2)%R eq_refl m l0 N) as (A1 & A2 & A3 & A4 & A5). rewrite A4, A1, A2, A3, !SD by assumption. repeat split; auto.
      f_equal. rewrite (Nat2Z.inj_succ (Datatypes.S m)), Z.pow_succ_r, mult_IZR by lia. ring.
  Qed.

  (** scales of a valid list of levels *)
  Definition levels_of (K : nat) (ls : list lev) : Prop := (1 <= K)%nat /\ shaped s K ls.
  Lemma scale_at_dbl K k : scale_at s K k = if (k <? K)%nat then EFin (dbl k) else EInf false.
  Proof. reflexivity. Qed.

  Lemma ensure_levels K ls ls' : levels_of K ls -> ensure_continuous proto ls = Ok ls' ->
    (forall l, In l ls -> 1 <= lv_w l /\ 1 <= lv_h l) ->
    exists new, ls' = firstn K ls ++ new ++ skipn K ls /\ levels_of (K + length new) ls' /\ cont ls' /\
      forall m l, nth_error new m = Some l -> exists pc a b, nth_error ls (K - 1) = Some pc /\ 0 <= a /\ 0 <= b /\ lv_w pc <= 2 ^ a /\ lv_h pc <= 2 ^ b /\
        lv_w l = side (2 ^ a) (Datatypes.S m) /\ lv_h l = side (2 ^ b) (Datatypes.S m) /\ lv_origin l = default_origin (lv_w l) (lv_h l) /\ forall q, lv_cells l q = proto.
  Proof.
    intros (HK & L & Sh) E Pos. unfold ensure_continuous in E. rewrite L in E. destruct (Nat.ltb_spec (Datatypes.S K) 2) as [|_]; [lia|].
    replace (Datatypes.S K - 2)%nat with (K - 1)%nat in E by lia.
    destruct (nth_error ls (K - 1)) as [pc|] eqn:N; [|discriminate].
    assert (LF : length (firstn K ls) = K) by (rewrite firstn_length; lia).
    destruct ((lv_w pc <=? 2) && (lv_h pc <=? 2)) eqn:T.
    - injection E as <-. exists []. cbn [app length]. split; [now rewrite firstn_skipn|]. split; [rewrite Nat.add_0_r; split; [exact HK|split; assumption]|]. split.
      + exists pc. rewrite L. replace (Datatypes.S K - 2)%nat with (K - 1)%nat by lia. apply andb_true_iff in T as [T1 T2]. split; [exact N|]. lia.
      + intros m l Hm. destruct m; discriminate.
    - apply bind_Ok_inv in E as (w & Ew & E). apply bind_Ok_inv in E as (h & Eh & E). apply bind_Ok_inv in E as (new & En & E).
      replace (Datatypes.S (K - 1)) with K in E by lia. injection E as <-.
      destruct (Pos pc (nth_error_In _ _ N)) as [P1 P2].
      apply ge_pow_Ok in Ew; [|exact P1]. apply ge_pow_Ok in Eh; [|exact P2]. destruct Ew as (a & Ha & -> & Wa & Wa'), Eh as (b & Hb & -> & Hb1 & Hb').
      assert (SC : lv_scale pc = EFin (dbl (K - 1))).
      { rewrite (Sh _ _ N), scale_at_dbl. destruct (Nat.ltb_spec (K - 1) K); [reflexivity|lia]. }
      apply new_levels_spec in En; [|lia..]. destruct En as [Ln Hn]. specialize (Hn _ SC).
      exists new. split; [reflexivity|]. split; [split; [lia|]; split|split].
      + rewrite !app_length, skipn_length, LF. lia.
      + intros k l. rewrite nth_mid by lia. rewrite scale_at_dbl. destruct (Nat.ltb_spec k K) as [H1|H1].
        * intros Nk. rewrite (Sh _ _ Nk), scale_at_dbl. destruct (Nat.ltb_spec k K); [|lia]. destruct (Nat.ltb_spec k (K + length new)); [reflexivity|lia].
        * destruct (Nat.ltb_spec k (K + length new)) as [H2|H2].
          -- intros Nk. destruct (Hn _ _ Nk) as (_ & _ & -> & _). f_equal. unfold dbl. rewrite Rmult_assoc, <- mult_IZR, <- Z.pow_add_r by lia. do 3 f_equal. lia.
          -- intros Nk. rewrite (Sh _ _ Nk), scale_at_dbl. destruct (Nat.ltb_spec (k - length new) K); [lia|reflexivity].
      + unfold cont. rewrite !app_length, skipn_length, LF, L. set (n := length new) in *.
        replace (K + (n + (Datatypes.S K - K)) - 2)%nat with (K + n - 1)%nat by lia. rewrite nth_mid by lia. fold n.
        assert (n <> 0)%nat.
        { intros Z0. rewrite Z0 in Ln. assert (a <= 1 /\ b <= 1) as [A1 B1] by lia.
          assert (2 ^ a <= 2 ^ 1) by (apply Z.pow_le_mono_r; lia). assert (2 ^ b <= 2 ^ 1) by (apply Z.pow_le_mono_r; lia).
          apply andb_false_iff in T as [T|T]; apply Z.leb_gt in T; lia. }
        destruct (Nat.ltb_spec (K + n - 1) K); [lia|]. destruct (Nat.ltb_spec (K + n - 1) (K + n)); [|lia].
        destruct (nth_error new (K + n - 1 - K)) as [l|] eqn:Nl; [|apply nth_error_None in Nl; fold n in Nl; lia].
        exists l. split; [reflexivity|]. destruct (Hn _ _ Nl) as (-> & -> & _). replace (Datatypes.S (K + n - 1 - K)) with n by lia.
        assert (B : forall x, 0 <= x -> x <= Z.of_nat n + 1 -> side (2 ^ x) n <= 2).
        { intros x X0 X1. unfold side. assert (2 ^ x <= 2 ^ (Z.of_nat n + 1)) by (apply Z.pow_le_mono_r; lia). rewrite Z.pow_add_r in * by lia.
          assert (0 < 2 ^ Z.of_nat n) by (apply Z.pow_pos_nonneg; lia). assert (2 ^ x / 2 ^ Z.of_nat n <= 2) by (apply Z.div_le_upper_bound; lia). lia. }
        split; apply B; lia.
      + intros m l Nl. destruct (Hn _ _ Nl) as (A1 & A2 & _ & A3 & A4). exists pc, a, b. repeat split; auto; lia.
  Qed.
  Lemma new_levels_total fuel : forall a b sc, 0 <= a -> 0 <= b -> Z.max a b <= Z.of_nat fuel -> exists ls, new_levels proto fuel (2 ^ a) (2 ^ b) sc = Ok ls.
  Proof.
    induction fuel as [|fuel IH]; intros a b sc Ha Hb Hf; cbn [new_levels]; destruct ((2 <? 2 ^ a) || (2 <? 2 ^ b)) eqn:T; eauto.
    - assert (a = 0 /\ b = 0) as [-> ->] by lia. discriminate.
    - assert (Q : forall x, 0 <= x -> Z.max 2 (Z.quot (2 ^ x) 2) = 2 ^ (Z.max 1 (x - 1))).
      { intros x Hx. rewrite Z.quot_div_nonneg by (try lia; apply Z.pow_nonneg; lia). destruct (Z.eq_dec x 0) as [->|]; [reflexivity|]. destruct (Z.eq_dec x 1) as [->|]; [reflexivity|].
        replace x with (Z.succ (x - 1)) at 1 by lia. rewrite Z.pow_succ_r, Z.mul_comm, Z.div_mul by lia.
        assert (2 ^ 1 <= 2 ^ (x - 1)) by (apply Z.pow_le_mono_r; lia). rewrite (Z.max_r 1) by lia. lia. }
      rewrite !Q by assumption. assert (1 < Z.max a b).
      { apply orb_true_iff in T as [T|T]; apply Z.ltb_lt in T.
        - destruct (Z_le_gt_dec a 1); [|lia]. assert (2 ^ a <= 2 ^ 1) by (apply Z.pow_le_mono_r; lia). lia.
        - destruct (Z_le_gt_dec b 1); [|lia]. assert (2 ^ b <= 2 ^ 1) by (apply Z.pow_le_mono_r; lia). lia. }
      edestruct (IH (Z.max 1 (a - 1)) (Z.max 1 (b - 1))) as [l E]; [lia..|]. rewrite E. cbn [bind]. eauto.
  Qed.
  Lemma ensure_total K ls : levels_of K ls -> (forall l, In l ls -> 1 <= lv_w l <= 2 ^ 30 /\ 1 <= lv_h l <= 2 ^ 30) -> exists ls', ensure_continuous proto ls = Ok ls'.
  Proof.
    intros (HK & L & Sh) Pos. unfold ensure_continuous. rewrite L. destruct (Nat.ltb_spec (Datatypes.S K) 2) as [|_]; [lia|].
    destruct (nth_error ls (Datatypes.S K - 2)) as [pc|] eqn:N; [|apply nth_error_None in N; lia]. destruct (_ && _); [eauto|].
    destruct (Pos pc (nth_error_In _ _ N)) as [P1 P2]. destruct (ge_pow_total _ P1) as [w Ew], (ge_pow_total _ P2) as [h Eh]. rewrite Ew, Eh. cbn [bind].
    apply ge_pow_Ok in Ew; [|lia]. apply ge_pow_Ok in Eh; [|lia]. destruct Ew as (a & Ha & -> & _), Eh as (b & Hb & -> & _).
    destruct (new_levels_total 40 a b (lv_scale pc)) as [l E]; [lia..|]. rewrite E. cbn [bind]. eauto.
  Qed.
End Shape.
