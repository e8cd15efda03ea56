(** Round trips of serialized values, cells and maps (C11-C13). *)
From Coq Require Import ZArith List Bool Lia.
From Flocq Require Import IEEE754.Binary IEEE754.Bits.
From Verif.Base Require Import Outcome Num.
From Verif.Model Require Import MathUtils Geometry Grid PlainMap Serialization Cells MapState.
From Verif.Proofs Require Import PlainMapProofs.
Import ListNotations.
Local Open Scope Z_scope.
Local Open Scope outcome_scope.

(** values the C++ types can hold *)
Definition fits (v : svalue) : Prop :=
  match v with
  | VInt z => - 2 ^ 31 <= z < 2 ^ 31
  | VSize z => 0 <= z < 2 ^ 64
  | _ => True
  end.

Lemma le_bytes_length n z : length (le_bytes n z) = n.
Proof. revert z. induction n; cbn; auto. Qed.
Lemma le_value_bytes n z : 0 <= z < 256 ^ Z.of_nat n -> le_value (le_bytes n z) = z.
Proof.
  revert z. induction n as [|n IH]; intros z Hz; cbn [le_bytes le_value].
  - cbn in Hz. lia.
  - rewrite Nat2Z.inj_succ, Z.pow_succ_r in Hz by lia.
    rewrite IH.
    + pose proof (Z.div_mod z 256). lia.
    + split; [apply Z.div_pos; lia|apply Z.div_lt_upper_bound; lia].
Qed.

Lemma repr_length v : length (repr v) = sizeof (type_of v).
Proof. destruct v; cbn [repr type_of sizeof]; rewrite ?le_bytes_length; auto. Qed.

Lemma b64_bits_range d : 0 <= bits_of_b64 d < 2 ^ 64.
Proof. apply (bits_of_binary_float_range 52 11); reflexivity. Qed.

Lemma unrepr_repr v : fits v -> unrepr (type_of v) (repr v) = Ok v.
Proof.
  destruct v as [z|z|b|d]; cbn [fits type_of repr unrepr]; intros Hf.
  - rewrite le_value_bytes; [|change (256 ^ Z.of_nat 4) with (2 ^ 32); apply Z.mod_pos_bound; lia].
    do 2 f_equal. destruct (Z_lt_ge_dec z 0) as [Hn|Hn].
    + replace (z mod 2 ^ 32) with (z + 2 ^ 32); [destruct (Z.ltb_spec (z + 2 ^ 32) (2 ^ 31)); lia|].
      rewrite <- (Z.mod_small (z + 2 ^ 32) (2 ^ 32)) by lia.
      rewrite <- (Z.mul_1_l (2 ^ 32)) at 1. apply Z.mod_add. lia.
    + rewrite Z.mod_small by lia. destruct (Z.ltb_spec z (2 ^ 31)); lia.
  - rewrite Z.mod_small by lia. rewrite le_value_bytes; auto.
  - destruct b; reflexivity.
  - rewrite le_value_bytes.
    + do 2 f_equal. apply (binary_float_of_bits_of_binary_float 52 11 eq_refl eq_refl eq_refl).
    + apply b64_bits_range.
Qed.

Definition stream (vs : list svalue) : bytes := concat (map repr vs).
Lemma add_values_app data vs : add_values data vs = data ++ stream vs.
Proof.
  revert data. induction vs as [|v vs IH]; intros data; unfold add_values in *; cbn [fold_left].
  - symmetry. apply app_nil_r.
  - rewrite IH. unfold add_value, stream; cbn. rewrite <- app_assoc. reflexivity.
Qed.

Lemma read_value_at pre v suf : fits v ->
  read_value (pre ++ repr v ++ suf) (length pre) (type_of v) = Ok (v, (length pre + length (repr v))%nat).
Proof.
  intros Hf. unfold read_value. rewrite !app_length, <- repr_length.
  destruct (Nat.leb_spec (length pre + length (repr v)) (length pre + (length (repr v) + length suf))); [|lia].
  replace (skipn (length pre) (pre ++ repr v ++ suf)) with (repr v ++ suf).
  2:{ rewrite skipn_app, skipn_all, Nat.sub_diag. reflexivity. }
  rewrite firstn_app, firstn_all, Nat.sub_diag, firstn_O, app_nil_r, unrepr_repr by auto.
  reflexivity.
Qed.

Lemma read_values_at vs : Forall fits vs -> forall pre suf,
  read_values (pre ++ stream vs ++ suf) (length pre) (map type_of vs) = Ok (vs, (length pre + length (stream vs))%nat).
Proof.
  induction 1 as [|v vs Hv Hvs IH]; intros pre suf; cbn [map read_values].
  - cbn. rewrite Nat.add_0_r. reflexivity.
  - change (stream (v :: vs)) with (repr v ++ stream vs). rewrite <- (app_assoc (repr v)).
    rewrite read_value_at by auto. cbn [bind]. rewrite <- app_length, (app_assoc pre).
    rewrite IH. cbn [bind]. rewrite !app_length. do 2 f_equal. lia.
Qed.

Lemma add_values_read vs before after : Forall fits vs ->
  read_values (add_values before vs ++ after) (length before) (map type_of vs)
  = Ok (vs, length (add_values before vs)).
Proof.
  intros Hf. rewrite add_values_app, <- app_assoc, read_values_at by auto. rewrite app_length. reflexivity.
Qed.

(** *** typed reads; stated with the bytes before ([pre]) and after ([suf]) *)
Lemma read_double_at pre d suf :
  read_double (pre ++ repr (VDouble d) ++ suf) (length pre) = Ok (d, length (pre ++ repr (VDouble d))).
Proof. unfold read_double. change TDouble with (type_of (VDouble d)). rewrite (read_value_at pre (VDouble d) suf I). rewrite app_length. reflexivity. Qed.
Lemma read_bool_at pre d suf :
  read_bool (pre ++ repr (VBool d) ++ suf) (length pre) = Ok (d, length (pre ++ repr (VBool d))).
Proof. unfold read_bool. change TBool with (type_of (VBool d)). rewrite (read_value_at pre (VBool d) suf I). rewrite app_length. reflexivity. Qed.
Lemma read_int_at pre z suf : - 2 ^ 31 <= z < 2 ^ 31 ->
  read_int (pre ++ repr (VInt z) ++ suf) (length pre) = Ok (z, length (pre ++ repr (VInt z))).
Proof. intros H. unfold read_int. change TInt with (type_of (VInt z)). rewrite (read_value_at pre (VInt z) suf H). rewrite app_length. reflexivity. Qed.

Lemma gcell_ser_eq c : gcell_ser c =
  repr (VDouble (prob_occ (c_occ c))) ++ repr (VDouble (est_quality (c_occ c))) ++ repr (VBool (c_unknown c)).
Proof. unfold gcell_ser. rewrite add_values_app. cbn [app stream map concat]. unfold stream. cbn [map concat]. rewrite app_nil_r. reflexivity. Qed.

Lemma gcell_deser_at pre c suf :
  gcell_deser (pre ++ gcell_ser c ++ suf) (length pre) = Ok (c, length (pre ++ gcell_ser c)).
Proof.
  rewrite gcell_ser_eq. unfold gcell_deser.
  set (a := VDouble (prob_occ (c_occ c))). set (b := VDouble (est_quality (c_occ c))). set (u := VBool (c_unknown c)).
  replace (pre ++ (repr a ++ repr b ++ repr u) ++ suf) with (pre ++ repr a ++ (repr b ++ repr u ++ suf))
    by (rewrite !app_assoc; reflexivity).
  unfold a at 1. rewrite read_double_at. cbn [bind]. fold a.
  replace (pre ++ repr a ++ (repr b ++ repr u ++ suf)) with ((pre ++ repr a) ++ repr b ++ (repr u ++ suf))
    by (rewrite !app_assoc; reflexivity).
  unfold b at 1. rewrite read_double_at. cbn [bind]. fold b.
  replace ((pre ++ repr a) ++ repr b ++ (repr u ++ suf)) with (((pre ++ repr a) ++ repr b) ++ repr u ++ suf)
    by (rewrite !app_assoc; reflexivity).
  unfold u at 1. rewrite read_bool_at. cbn [bind]. fold u. rewrite !app_assoc.
  destruct c as [[p q] un]. reflexivity.
Qed.

Lemma tcell_deser_at pre c suf :
  tcell_deser (pre ++ tcell_ser c ++ suf) (length pre) = Ok (c, length (pre ++ tcell_ser c)).
Proof.
  unfold tcell_ser, tcell_deser. rewrite add_values_app. unfold stream. cbn [map concat]. rewrite app_nil_r.
  destruct c as [g [u e o k]]. cbn [tc_cell tc_belief t_unknown t_empty t_occupied t_conflict].
  set (G := gcell_ser g).
  replace (pre ++ (G ++ repr (VDouble u) ++ repr (VDouble e) ++ repr (VDouble o) ++ repr (VDouble k)) ++ suf)
    with (pre ++ G ++ (repr (VDouble u) ++ repr (VDouble e) ++ repr (VDouble o) ++ repr (VDouble k) ++ suf))
    by (rewrite <- !app_assoc; reflexivity).
  unfold G. rewrite (gcell_deser_at pre g). fold G. cbn [bind]. rewrite app_assoc.
  rewrite read_double_at. cbn [bind]. rewrite (app_assoc (pre ++ G)).
  rewrite read_double_at. cbn [bind]. rewrite (app_assoc ((pre ++ G) ++ _)).
  rewrite read_double_at. cbn [bind]. rewrite (app_assoc (((pre ++ G) ++ _) ++ _)).
  rewrite read_double_at. cbn [bind]. rewrite <- !app_assoc. reflexivity.
Qed.

(** *** cell classes: what restoring a serialized cell over an existing object gives *)
Definition restores {C} (cc : codec C) (r : C -> C -> C) : Prop :=
  forall obj c pre suf,
    deser cc obj (pre ++ ser cc c ++ suf) (length pre) = Ok (r obj c, length (pre ++ ser cc c)).

Lemma gcell_restores : restores gcell_codec (fun _ c => c).
Proof. intros obj c pre suf. apply gcell_deser_at. Qed.
Lemma tcell_restores : restores tcell_codec (fun _ c => c).
Proof. intros obj c pre suf. apply tcell_deser_at. Qed.
Lemma mcell_restores : restores mcell_codec (fun obj c => mkMCell (m_cell c) (m_n obj)).
Proof. intros obj c pre suf. cbn [deser ser mcell_codec gmcell_codec]. rewrite gcell_deser_at. reflexivity. Qed.
Lemma gmcell_restores : restores gmcell_codec (fun obj c => mkGm (g_cell c) (g_hits obj) (g_tries obj) (g_obst obj)).
Proof. intros obj c pre suf. cbn [deser ser mcell_codec gmcell_codec]. rewrite gcell_deser_at. reflexivity. Qed.

Section MapState.
  Context {C : Type}.
  Variable cc : codec C.
  Variable r : C -> C -> C.
  Hypothesis Hr : restores cc r.

  Definition row_bytes (row : list C) : bytes := concat (map (ser cc) row).
  Lemma fold_row row ms : fold_left (fun ms c => append_data ms (ser cc c)) row ms = ms ++ row_bytes row.
  Proof.
    revert ms. induction row as [|c row IH]; intros ms; cbn; [symmetry; apply app_nil_r|].
    rewrite IH. unfold append_data, row_bytes. cbn. apply eq_sym, app_assoc.
  Qed.
  Definition rows_bytes (rows : list (list C)) : bytes := concat (map row_bytes rows).
  Lemma fold_rows rows ms :
    fold_left (fun ms row => fold_left (fun ms c => append_data ms (ser cc c)) row ms) rows ms = ms ++ rows_bytes rows.
  Proof.
    revert ms. induction rows as [|row rows IH]; intros ms; cbn; [symmetry; apply app_nil_r|].
    rewrite IH, fold_row. unfold rows_bytes. cbn. apply eq_sym, app_assoc.
  Qed.

  Lemma load_row_at proto row pre suf :
    load_row cc proto (pre ++ row_bytes row ++ suf) (length pre) (length row)
    = Ok (map (r proto) row, length (pre ++ row_bytes row)).
  Proof.
    revert pre. induction row as [|c row IH]; intros pre; cbn [length load_row map].
    - unfold row_bytes. cbn. rewrite app_nil_r. reflexivity.
    - change (row_bytes (c :: row)) with (ser cc c ++ row_bytes row). rewrite <- (app_assoc (ser cc c)), Hr.
      cbn [bind]. rewrite (app_assoc pre), IH. cbn [bind]. rewrite !app_assoc. reflexivity.
  Qed.
  Lemma load_rows_at proto rows w pre suf : Forall (fun row => length row = w) rows ->
    load_rows cc proto (pre ++ rows_bytes rows ++ suf) (length pre) w (length rows)
    = Ok (map (map (r proto)) rows, length (pre ++ rows_bytes rows)).
  Proof.
    intros H. revert pre. induction H as [|row rows Hrow Hrows IH]; intros pre; cbn [length load_rows map].
    - unfold rows_bytes. cbn. rewrite app_nil_r. reflexivity.
    - change (rows_bytes (row :: rows)) with (row_bytes row ++ rows_bytes rows).
      rewrite <- (app_assoc (row_bytes row)). rewrite <- Hrow at 1. rewrite load_row_at.
      cbn [bind]. rewrite (app_assoc pre), IH. cbn [bind]. rewrite !app_assoc. reflexivity.
  Qed.

  Definition fits_int z := - 2 ^ 31 <= z < 2 ^ 31.
  Lemma save_load (m : pmap C) scale m0 : shape m ->
    p_w m * p_h m < 2 ^ 31 -> p_w m < 2 ^ 31 -> p_h m < 2 ^ 31 ->
    fits_int (cx (p_origin m)) -> fits_int (cy (p_origin m)) ->
    exists data, save_state cc m scale = Ok data /\
      load_state cc m0 data =
        Ok (mkPMap (p_w m) (p_h m) (p_origin m) (map (map (r (p_proto m0))) (p_cells m)) (p_proto m0), scale).
  Proof.
    intros (Hw & Hh & HL & HF) Hwh Hw' Hh' Hx Hy. unfold save_state.
    assert (E : in_int (p_w m * p_h m) = true).
    { unfold in_int, int_min, int_max. apply andb_true_intro. split; apply Z.leb_le; nia. }
    rewrite E, fold_rows, add_values_app. eexists. split; [reflexivity|].
    unfold append_data, stream. cbn [map concat app].
    destruct m as [w h [ox oy] cells proto]. cbn [p_w p_h p_origin p_cells p_proto cx cy fst snd] in *.
    assert (RD := fun pre x suf => read_int_at pre x suf).
    unfold load_state. rewrite app_nil_r, <- !app_assoc.
    set (tail5 := rows_bytes cells).
    assert (R1 := read_int_at [] h (repr (VInt w) ++ repr (VDouble scale) ++ repr (VInt ox) ++ repr (VInt oy) ++ tail5)
                    ltac:(lia)).
    cbn [app length] in R1. rewrite R1. cbn [bind]. clear R1.
    rewrite read_int_at by lia. cbn [bind]. rewrite (app_assoc (repr (VInt h))).
    rewrite read_double_at. cbn [bind]. rewrite (app_assoc (_ ++ _) (repr (VDouble scale))).
    rewrite read_int_at by exact Hx. cbn [bind]. rewrite (app_assoc (_ ++ _) (repr (VInt ox))).
    rewrite read_int_at by exact Hy. cbn [bind].
    destruct (Z.ltb_spec h 0); [lia|]. rewrite (app_assoc (_ ++ _) (repr (VInt oy))).
    rewrite <- (app_nil_r tail5). unfold tail5.
    replace (Z.to_nat h) with (length cells) by lia.
    rewrite load_rows_at; [reflexivity|].
    eapply Forall_impl; [|exact HF]. intros row Hrow. cbn in Hrow. lia.
  Qed.

  Lemma znth_map {A B} (f : A -> B) l i : znth (map f l) i = option_map f (znth l i).
  Proof. unfold znth. destruct (i <? 0); auto. apply nth_error_map. Qed.

  Lemma loaded_reads (m : pmap C) proto0 c :
    unb_get (mkPMap (p_w m) (p_h m) (p_origin m) (map (map (r proto0)) (p_cells m)) proto0) c =
    if has_internal_cell (p_w m) (p_h m) (external2internal (p_origin m) c) then
      v <- unb_get m c ;; Ok (r proto0 v)
    else Ok proto0.
  Proof.
    unfold unb_get. cbn [p_w p_h p_origin p_cells p_proto].
    destruct (has_internal_cell _ _ _); [|reflexivity].
    unfold cell_internal. cbn [p_cells]. rewrite znth_map.
    destruct (znth (p_cells m) _) as [row|]; cbn [option_map]; [|reflexivity].
    rewrite znth_map. destruct (znth row _); reflexivity.
  Qed.
End MapState.

From Verif.Spec Require Import MapSpec.
Section Reachable.
  Context {C Ob : Type}.
  Variable cell_upd : C -> Ob -> C.
  Variable cc : codec C.
  Variable r : C -> C -> C.
  Hypothesis Hr : restores cc r.

  Theorem save_load_reachable proto w h M ops scale m m0 :
    1 <= w -> 1 <= h -> 0 <= M -> 4 * M + 2 * Z.max w h < 2 ^ 31 ->
    (forall op, In op ops -> within M (w_coord (op_write op))) ->
    unb_run (ops := FOps) cell_upd (pmap_new proto w h) ops = Ok m -> p_w m * p_h m < 2 ^ 31 ->
    exists data m', save_state cc m scale = Ok data /\ load_state cc m0 data = Ok (m', scale) /\
      p_w m' = p_w m /\ p_h m' = p_h m /\ p_origin m' = p_origin m /\ p_proto m' = p_proto m0 /\
      forall c, unb_get m' c =
        if has_internal_cell (p_w m) (p_h m) (external2internal (p_origin m) c) then
          Ok (r (p_proto m0) (t_run cell_upd (t_init proto) (map op_write ops) c))
        else Ok (p_proto m0).
  Proof.
    intros Hw Hh HM HB Hin Em Hwh.
    destruct (unb_run_inv cell_upd M (Z.max w h) ops HM) with (m := pmap_new proto w h) (f := t_init (C := C) proto)
      as (m1 & E & HS & HR & AX & AY); auto; try lia.
    { apply pmap_new_pinv; lia. }
    rewrite Em in E. injection E as <-. unfold axis_ok in AX, AY.
    destruct (save_load cc r Hr m scale m0) as (data & Es & El); auto; try (unfold fits_int; lia).
    exists data. eexists. split; [exact Es|]. split; [exact El|]. repeat (split; [reflexivity|]).
    intros c. rewrite loaded_reads, HR. reflexivity.
  Qed.

  (** prototypes are never changed *)
  Lemma unb_run_proto ops : forall (m m' : pmap C), unb_run (ops := FOps) cell_upd m ops = Ok m' -> p_proto m' = p_proto m.
  Proof.
    assert (SI : forall (m m' : pmap C) ic v, set_internal m ic v = Ok m' -> p_proto m' = p_proto m).
    { intros m m' ic v. unfold set_internal. destruct (znth _ _); [|discriminate]. destruct (znth _ _); [|discriminate].
      intros E; injection E as <-. reflexivity. }
    assert (EI : forall (m m' : pmap C) c, ensure_inside (ops := FOps) m c = Ok m' -> p_proto m' = p_proto m).
    { intros m m' c. unfold ensure_inside. destruct (has_internal_cell _ _ _); [intros E; injection E as <-; reflexivity|].
      cbv zeta. intros E.
      apply bind_Ok_inv in E. destruct E as ([px ax] & _ & E).
      apply bind_Ok_inv in E. destruct E as ([py ay] & _ & E).
      apply bind_Ok_inv in E. destruct E as ([[nw px'] ax'] & _ & E).
      apply bind_Ok_inv in E. destruct E as ([[nh py'] ay'] & _ & E).
      apply bind_Ok_inv in E. destruct E as (cells & _ & E).
      apply bind_Ok_inv in E. destruct E as (u & _ & E). injection E as <-. reflexivity. }
    induction ops as [|op ops IH]; intros m m' E; cbn in E.
    - injection E as <-. reflexivity.
    - apply bind_Ok_inv in E. destruct E as (m1 & E1 & E2). rewrite (IH _ _ E2).
      destruct op as [c o|c v]; cbn in E1; unfold unb_update, unb_reset, plain_reset in E1;
        apply bind_Ok_inv in E1; destruct E1 as (m2 & E3 & E1); apply EI in E3.
      + apply bind_Ok_inv in E1. destruct E1 as (v & _ & E1). apply SI in E1. congruence.
      + apply SI in E1. congruence.
  Qed.
End Reachable.

(** all cells of a map that was never written read as its prototype *)
Theorem save_load_lossless {C Ob} (cell_upd : C -> Ob -> C) (cc : codec C) proto w h M ops scale m m0 :
  restores cc (fun _ c => c) ->
  1 <= w -> 1 <= h -> 0 <= M -> 4 * M + 2 * Z.max w h < 2 ^ 31 ->
  (forall op, In op ops -> within M (w_coord (op_write op))) ->
  unb_run (ops := FOps) cell_upd (pmap_new proto w h) ops = Ok m -> p_w m * p_h m < 2 ^ 31 ->
  p_proto m0 = proto ->
  exists data m', save_state cc m scale = Ok data /\ load_state cc m0 data = Ok (m', scale) /\
    p_w m' = p_w m /\ p_h m' = p_h m /\ p_origin m' = p_origin m /\
    forall c, unb_get m' c = unb_get m c.
Proof.
  intros Hr Hw Hh HM HB Hin Em Hwh Hp.
  destruct (save_load_reachable cell_upd cc _ Hr proto w h M ops scale m m0 Hw Hh HM HB Hin Em Hwh)
    as (data & m' & Es & El & E1 & E2 & E3 & E4 & E5).
  exists data, m'. repeat (split; [assumption|]). intros c. rewrite E5.
  destruct (unbounded_plain_refines cell_upd proto w h M ops Hw Hh HM HB Hin) as (m1 & E & HR & _).
  rewrite Em in E. injection E as <-.
  destruct (has_internal_cell _ _ _) eqn:Ei; [symmetry; apply HR|].
  unfold unb_get. rewrite Ei. rewrite (unb_run_proto cell_upd ops _ _ Em). rewrite Hp. reflexivity.
Qed.
