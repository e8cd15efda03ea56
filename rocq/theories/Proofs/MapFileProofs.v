(** Maps on disk. *)
From Coq Require Import ZArith List Bool Lia.
From Verif.Base Require Import Outcome Num OrdLaws.
From Verif.Model Require Import MathUtils Geometry Grid PlainMap LazyMap Serialization MapState MapFile.
From Verif.Spec Require Import MapSpec MapFileSpec.
From Verif.Proofs Require Import PlainMapProofs StateProofs PyramidShape.
Import ListNotations.
Local Open Scope Z_scope.
Local Open Scope outcome_scope.

Lemma read_size_at pre z suf : 0 <= z < 2 ^ 64 ->
  read_size (pre ++ repr (VSize z) ++ suf) (length pre) = Ok (z, length (pre ++ repr (VSize z))).
Proof. intros H. unfold read_size. change TSize with (type_of (VSize z)). rewrite (read_value_at pre (VSize z) suf H). rewrite app_length. reflexivity. Qed.

Section Rescalable.
  Context {C B : Type}.
  Variable bk : back_class C B.
  Variable proto : C.
  Variable ok : B -> Prop.
  (** every class: constructed maps have the requested size *)
  Hypothesis new_ok : forall w h s, 2 <= w <= 2 ^ 29 -> 2 <= h <= 2 ^ 29 ->
    exists b, bk_new bk proto w h s = Ok b /\ bk_width bk b = w /\ bk_height bk b = h /\ (w * h < 2 ^ 31 -> ok b).

  Definition chunk (d : bytes) : bytes := repr (VSize (Z.of_nat (length d))) ++ d.
  Lemma save_chunks_eq ms ds : Forall2 (fun m d => bk_save bk m = Ok d) ms ds -> forall s, save_chunks bk ms s = Ok (s ++ concat (map chunk ds)).
  Proof.
    induction 1 as [|m d ms ds Hm H IH]; intros s; cbn [save_chunks map concat]; [now rewrite app_nil_r|].
    rewrite Hm. cbn [bind]. rewrite IH. unfold append_data, add_value, chunk. now rewrite <- !app_assoc.
  Qed.
  Lemma load_chunks_eq b0 ms ds : bk_new bk proto 0 0 (dofZ 0) = Ok b0 -> Forall2 (fun m d => Z.of_nat (length d) < 2 ^ 64 /\ bk_load bk b0 d = Ok m) ms ds ->
    forall fuel pre, (length ds <= fuel)%nat -> load_chunks bk proto fuel (pre ++ concat (map chunk ds)) (length pre) = Ok ms.
  Proof.
    intros E0. induction 1 as [|m d ms ds [Hd Hm] H IH]; intros fuel pre Hf.
    - cbn [map concat]. rewrite app_nil_r. destruct fuel; cbn [load_chunks]; now rewrite Nat.eqb_refl.
    - cbn [length] in Hf. destruct fuel as [|fuel]; [lia|]. cbn [map concat load_chunks]. set (rest := concat (map chunk ds)). set (v := repr (VSize (Z.of_nat (length d)))).
      assert (LR : length v = 8%nat) by (unfold v; rewrite repr_length; reflexivity).
      assert (X0 : pre ++ chunk d ++ rest = pre ++ v ++ d ++ rest) by (unfold chunk; now rewrite <- app_assoc). rewrite X0. clear X0.
      set (full := pre ++ v ++ d ++ rest).
      assert (LF : length full = (length pre + 8 + length d + length rest)%nat) by (unfold full; rewrite !app_length; lia).
      assert (R1 : read_size full (length pre) = Ok (Z.of_nat (length d), length (pre ++ v))) by (unfold full, v; apply read_size_at; lia).
      assert (R2 : firstn (length d) (skipn (length (pre ++ v)) full) = d).
      { unfold full. rewrite app_assoc, skipn_app, skipn_all, Nat.sub_diag. cbn [skipn app]. rewrite firstn_app, firstn_all, Nat.sub_diag. cbn [firstn]. apply app_nil_r. }
      assert (R3 : load_chunks bk proto fuel full (length (pre ++ v) + length d) = Ok ms).
      { replace full with (((pre ++ v) ++ d) ++ rest) by (unfold full; now rewrite <- !app_assoc). rewrite <- app_length. apply IH. lia. }
      assert (LV : length (pre ++ v) = (length pre + 8)%nat) by (rewrite app_length; lia).
      destruct (Nat.eqb_spec (length pre) (length full)) as [X|_]; [lia|].
      rewrite R1. cbn [bind]. rewrite Nat2Z.id.
      assert (A : (length (pre ++ v) + length d <=? length full)%nat = true) by (apply Nat.leb_le; lia).
      rewrite A. cbn [assert_ bind]. rewrite E0. cbn [bind]. rewrite R2, Hm. cbn [bind]. rewrite R3. reflexivity.
  Qed.
  Lemma chunks_len ds : (length ds <= length (concat (map chunk ds)))%nat.
  Proof. induction ds as [|d ds IH]; cbn [map concat length]; [lia|]. unfold chunk at 1. rewrite !app_length, repr_length. change (sizeof _) with 8%nat. lia. Qed.

  Lemma added_total fuel : forall a b s, 0 <= a <= 30 -> 0 <= b <= 30 -> Z.max a b <= Z.of_nat fuel ->
    exists ls, added_maps bk proto fuel (2 ^ a) (2 ^ b) s = Ok ls /\ (2 ^ a * 2 ^ b < 2 ^ 33 -> Forall ok ls) /\
      ((ls = [] /\ 2 ^ a <= 2 /\ 2 ^ b <= 2) \/ exists pc, nth_error ls (length ls - 1) = Some pc /\ (0 < length ls)%nat /\ bk_width bk pc <= 2 /\ bk_height bk pc <= 2).
  Proof.
    induction fuel as [|fuel IH]; intros a b s Ha Hb Hf; cbn [added_maps]; destruct ((2 <? 2 ^ a) || (2 <? 2 ^ b)) eqn:T.
    1: assert (a = 0 /\ b = 0) as [-> ->] by lia; discriminate.
    1,3: apply orb_false_iff in T as [T1 T2]; apply Z.ltb_ge in T1; apply Z.ltb_ge in T2; exists []; auto 6.
    assert (Q : forall x, 0 <= x -> Z.max 2 (Z.quot (2 ^ x) 2) = 2 ^ (Z.max 1 (x - 1))).
    { intros x Hx. rewrite Z.quot_div_nonneg by (try lia; apply Z.pow_nonneg; lia). destruct (Z.eq_dec x 0) as [->|]; [reflexivity|]. destruct (Z.eq_dec x 1) as [->|]; [reflexivity|].
      replace x with (Z.succ (x - 1)) at 1 by lia. rewrite Z.pow_succ_r, Z.mul_comm, Z.div_mul by lia.
      assert (2 ^ 1 <= 2 ^ (x - 1)) by (apply Z.pow_le_mono_r; lia). rewrite (Z.max_r 1) by lia. lia. }
    rewrite !Q by lia. assert (M1 : 1 < Z.max a b).
    { apply orb_true_iff in T as [T|T]; apply Z.ltb_lt in T.
      - destruct (Z_le_gt_dec a 1); [|lia]. assert (2 ^ a <= 2 ^ 1) by (apply Z.pow_le_mono_r; lia). lia.
      - destruct (Z_le_gt_dec b 1); [|lia]. assert (2 ^ b <= 2 ^ 1) by (apply Z.pow_le_mono_r; lia). lia. }
    assert (P : forall x, 0 <= x <= 30 -> 2 <= 2 ^ Z.max 1 (x - 1) <= 2 ^ 29).
    { intros x Hx. assert (2 ^ 1 <= 2 ^ Z.max 1 (x - 1)) by (apply Z.pow_le_mono_r; lia). assert (2 ^ Z.max 1 (x - 1) <= 2 ^ 29) by (apply Z.pow_le_mono_r; lia). lia. }
    assert (Pa := P a Ha). assert (Pb := P b Hb).
    destruct (new_ok (2 ^ Z.max 1 (a - 1)) (2 ^ Z.max 1 (b - 1)) (dmul s (dofZ 2))) as (m & Em & Wm & Hm & Om); [lia|lia|].
    rewrite Em. cbn [bind].
    edestruct (IH (Z.max 1 (a - 1)) (Z.max 1 (b - 1))) as (l & E & O & Last); [lia..|]. rewrite E. cbn [bind]. eexists. split; [reflexivity|].
    assert (SZ : 2 ^ a * 2 ^ b < 2 ^ 33 -> 2 ^ Z.max 1 (a - 1) * 2 ^ Z.max 1 (b - 1) < 2 ^ 31).
    { rewrite <- !Z.pow_add_r by lia. intros H. assert (a + b < 33) by (apply (Z.pow_lt_mono_r_iff 2); lia). apply Z.pow_lt_mono_r; lia. }
    split.
    - intros H. constructor; [now apply Om, SZ|]. apply O. specialize (SZ H). change (2 ^ 33) with (4 * 2 ^ 31). lia.
    - right. destruct Last as [(-> & A & D)|(pc & N & L & A & D)].
      + exists m. cbn. split; [reflexivity|]. split; [lia|]. rewrite Wm, Hm. lia.
      + exists pc. cbn [length]. split; [|split; [lia|auto]]. replace (Datatypes.S (length l) - 1)%nat with (Datatypes.S (length l - 1)) by lia. exact N.
  Qed.

  Definition settled (ms : list B) : Prop := (length ms < 2)%nat \/ exists pc, nth_error ms (length ms - 2) = Some pc /\ bk_width bk pc <= 2 /\ bk_height bk pc <= 2.
  Lemma settled_ensure ms : settled ms -> ensure_maps bk proto ms = Ok ms.
  Proof.
    unfold ensure_maps. intros [H|(pc & N & W & H)].
    - destruct (Nat.ltb_spec (length ms) 2); [reflexivity|lia].
    - destruct (_ <? 2)%nat; [reflexivity|]. rewrite N. destruct (Z.leb_spec (bk_width bk pc) 2); [|lia]. destruct (Z.leb_spec (bk_height bk pc) 2); [|lia]. reflexivity.
  Qed.

  Lemma ensure_maps_total ms : (forall m, In m ms -> 1 <= bk_width bk m <= 2 ^ 30 /\ 1 <= bk_height bk m <= 2 ^ 30 /\ bk_width bk m * bk_height bk m < 2 ^ 31) -> Forall ok ms ->
    exists ms', ensure_maps bk proto ms = Ok ms' /\ settled ms' /\ Forall ok ms' /\ (length ms <= length ms')%nat.
  Proof.
    intros Pos OK. unfold ensure_maps. destruct (Nat.ltb_spec (length ms) 2) as [L|L]; [exists ms; split; [reflexivity|]; split; [now left|auto]|].
    destruct (nth_error ms (length ms - 2)) as [pc|] eqn:N; [|apply nth_error_None in N; lia].
    destruct ((bk_width bk pc <=? 2) && (bk_height bk pc <=? 2)) eqn:T.
    { apply andb_true_iff in T as [T1 T2]. apply Z.leb_le in T1. apply Z.leb_le in T2. exists ms. split; [reflexivity|]. split; [right; eauto|auto]. }
    destruct (Pos pc (nth_error_In _ _ N)) as (P1 & P2 & P3). destruct (ge_pow_total _ P1) as [w Ew], (ge_pow_total _ P2) as [h Eh]. rewrite Ew, Eh. cbn [bind].
    apply ge_pow_Ok in Ew; [|lia]. apply ge_pow_Ok in Eh; [|lia]. destruct Ew as (a & Ha & -> & Wa & La), Eh as (b & Hb & -> & Wb & Lb).
    destruct (added_total 40 a b (bk_scale bk pc)) as (l & E & O & Last); [lia..|]. rewrite E. cbn [bind]. eexists. split; [reflexivity|].
    assert (SZ : 2 ^ a * 2 ^ b < 2 ^ 33).
    { assert (D : forall e i, (e = 0 \/ 2 ^ (e - 1) < i) -> 0 <= e -> 1 <= i -> 2 ^ e <= 2 * i - 1 + 0).
      { intros e i [->|H] He Hi; [change (2 ^ 0) with 1; lia|]. destruct (Z.eq_dec e 0) as [->|]; [change (2 ^ 0) with 1; lia|]. assert (X : 2 ^ e = 2 * 2 ^ (e - 1)) by (rewrite <- Z.pow_succ_r by lia; f_equal; lia). lia. }
      assert (Da := D a _ La ltac:(lia) ltac:(lia)). assert (Db := D b _ Lb ltac:(lia) ltac:(lia)). assert (0 < 2 ^ a) by (apply Z.pow_pos_nonneg; lia). assert (0 < 2 ^ b) by (apply Z.pow_pos_nonneg; lia). nia. }
    assert (LF : length (firstn (S (length ms - 2)) ms) = S (length ms - 2)) by (rewrite firstn_length; lia).
    assert (LS : length (skipn (S (length ms - 2)) ms) = 1%nat) by (rewrite skipn_length; lia).
    split; [|split].
    - right. rewrite !app_length, LF, LS. destruct Last as [(-> & A & D)|(q & Nq & Lq & A & D)].
      + apply andb_false_iff in T as [T|T]; apply Z.leb_gt in T; lia.
      + exists q. split; [|auto]. rewrite nth_error_app2 by lia. rewrite nth_error_app1 by lia. rewrite LF. replace (S (length ms - 2) + (length l + 1) - 2 - S (length ms - 2))%nat with (length l - 1)%nat by lia. exact Nq.
    - apply Forall_app. split; [|apply Forall_app; split; [now apply O|]]; apply Forall_forall; intros x Hx; rewrite Forall_forall in OK; apply OK.
      + rewrite <- (firstn_skipn (S (length ms - 2)) ms). apply in_or_app. now left.
      + rewrite <- (firstn_skipn (S (length ms - 2)) ms). apply in_or_app. now right.
    - rewrite !app_length, LF, LS. lia.
  Qed.
End Rescalable.

(** ** levels of the unbounded plain class *)
Section UnboundedPlain.
  Context {C Ob : Type}.
  Variable cell_upd : C -> Ob -> C.
  Variable cc : codec C.
  Hypothesis Hr : restores cc (fun _ c => c).
  Hypothesis small : forall c, Z.of_nat (length (ser cc c)) <= 2 ^ 20.
  Variable proto : C.
  Local Notation bk := (unbounded_plain_class cc).
  Local Notation used := (used_map cell_upd proto).

  Lemma used_shape b : used b -> shape (fst b) /\ p_proto (fst b) = proto /\ fits_int (cx (p_origin (fst b))) /\ fits_int (cy (p_origin (fst b))) /\
    p_w (fst b) * p_h (fst b) < 2 ^ 31 /\ p_w (fst b) <= 2 ^ 30 /\ p_h (fst b) <= 2 ^ 30.
  Proof.
    intros (w & h & M & ops & Hw & Hh & HM & HB & Hin & Em & S1 & S2 & S3).
    destruct (unb_run_inv cell_upd M (Z.max w h) ops HM) with (m := pmap_new proto w h) (f := t_init (C := C) proto)
      as (m1 & E & HS & HR & AX & AY); auto; try lia.
    { apply pmap_new_pinv; lia. }
    rewrite Em in E. injection E as <-. unfold axis_ok in AX, AY. unfold fits_int.
    assert (P := unb_run_proto cell_upd ops _ _ Em). repeat (split; [first [exact HS|exact P|lia]|]). lia.
  Qed.
  Lemma row_len row : Z.of_nat (length (row_bytes cc row)) <= Z.of_nat (length row) * 2 ^ 20.
  Proof.
    induction row as [|c row IH]; [cbn; lia|]. change (row_bytes cc (c :: row)) with (ser cc c ++ row_bytes cc row). rewrite app_length. specialize (small c). cbn [length]. lia.
  Qed.
  Lemma rows_len w rows : Forall (fun row => Z.of_nat (length row) = w) rows -> Z.of_nat (length (rows_bytes cc rows)) <= Z.of_nat (length rows) * w * 2 ^ 20.
  Proof.
    induction 1 as [|row rows H F IH]; [cbn; lia|]. change (rows_bytes cc (row :: rows)) with (row_bytes cc row ++ rows_bytes cc rows). rewrite app_length. assert (R := row_len row). cbn [length]. lia.
  Qed.
  Lemma used_saved b b0 : used b -> p_proto (fst b0) = proto ->
    exists d b', bk_save bk b = Ok d /\ Z.of_nat (length d) < 2 ^ 64 /\ bk_load bk b0 d = Ok b' /\ same_map b' b.
  Proof.
    intros U P0. destruct (used_shape b U) as (HS & P & FX & FY & S1 & S2 & S3). cbn [bk_save bk_load unbounded_plain_class].
    destruct (save_load cc _ Hr (fst b) (snd b) (fst b0)) as (d & Es & El); auto; [lia|lia|]. exists d. eexists. split; [exact Es|]. split; [|split; [exact El|]].
    - revert Es. unfold save_state. destruct (in_int _); [|discriminate]. rewrite fold_rows, add_values_app. intros E. match type of E with Ok ?x = _ => assert (X : d = x) by congruence; rewrite X end. clear X E. unfold append_data. rewrite !app_length.
      destruct HS as (W1 & H1 & HL & HF). assert (R := rows_len _ _ HF). rewrite HL in R.
      assert (L5 : length (stream [VInt (p_h (fst b)); VInt (p_w (fst b)); VDouble (snd b); VInt (cx (p_origin (fst b))); VInt (cy (p_origin (fst b)))]) = 24%nat) by reflexivity.
      rewrite L5. cbn [length]. assert (p_h (fst b) * p_w (fst b) * 2 ^ 20 <= 2 ^ 31 * 2 ^ 20) by (apply Z.mul_le_mono_nonneg_r; lia). lia.
    - assert (ME : forall l : list (list C), map (map (fun c => c)) l = l) by (intros l; rewrite (map_ext _ (fun x => x)); [apply map_id|intros; apply map_id]).
      rewrite ME, P0, <- P. destruct b as [[w h o cells pr] s]. cbn in *. repeat split.
  Qed.
  Lemma unb_new_ok w h s : 2 <= w <= 2 ^ 29 -> 2 <= h <= 2 ^ 29 ->
    exists b, bk_new bk proto w h s = Ok b /\ bk_width bk b = w /\ bk_height bk b = h /\ (w * h < 2 ^ 31 -> used b).
  Proof.
    intros Hw Hh. eexists. split; [reflexivity|]. split; [reflexivity|]. split; [reflexivity|]. intros S.
    exists w, h, 0, []. cbn [fst pmap_new p_w p_h]. repeat (split; [first [lia|reflexivity|now intros op []]|]). lia.
  Qed.
End UnboundedPlain.
