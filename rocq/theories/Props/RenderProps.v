(** C48-C49: PGM dumps and published occupancy grids. *)
From Coq Require Import Ascii String Reals ZArith List Bool Lia Lra.
From Flocq Require Import Core IEEE754.BinarySingleNaN IEEE754.Binary IEEE754.Bits.
From Verif.Base Require Import Outcome Num F64Facts.
From Verif.Model Require Import MathUtils Geometry Grid PlainMap Properties Cells Render.
From Verif.Spec Require Import MapSpec PropertiesSpec RenderSpec.
From Verif.Proofs Require Import PropertiesProofs PlainMapProofs RenderProofs.
From Verif.Props Require Import PlainMapProps.
Import ListNotations.
Local Open Scope Z_scope.

Lemma intensity_grey (o : F64) : exists p, pgm_intensity o = Ok p /\ grey o p.
Proof.
  destruct (deq o (dofZ (-1))) eqn:E.
  - exists 127. split; [apply intensity_unknown; exact E|]. left. split; [exact E|reflexivity].
  - destruct (intensity_known o E) as (v & Cv & I). exists (shade v). split; [exact I|]. right. split; [exact E|].
    assert (B := clamped_01 _ _ Cv). split; [apply shade_bounds; exact B|]. exists v. split; [exact Cv|apply shade_close; exact B].
Qed.
Definition grey_fun (o : F64) : Z := match pgm_intensity o with Ok p => p | _ => 0 end.
Lemma grey_fun_spec o : pgm_intensity o = Ok (grey_fun o) /\ grey o (grey_fun o).
Proof. destruct (intensity_grey o) as (p & I & G). unfold grey_fun. rewrite I. split; [reflexivity|exact G]. Qed.

(** A picture of all the cells of a map, one row after the other. *)
Lemma picture {A} (entry : F64 -> outcome A) (e : F64 -> A) (occ : coord -> outcome F64) (f : coord -> F64) (w h : Z) (origin : coord) :
  0 <= w -> 0 <= h -> (forall c, in_map w h origin c -> occ c = Ok (f c)) -> (forall c, in_map w h origin c -> entry (f c) = Ok (e (f c))) ->
  (exists px, for_down (S (Z.to_nat h)) (h - cy origin - 1) (- cy origin) (fun y => for_up (S (Z.to_nat w)) (- cx origin) (w - cx origin) (fun x =>
     bind (occ (x, y)) (fun o => bind (entry o) (fun v => Ok [v])))) = Ok px /\ Z.of_nat (length px) = h * w /\
     forall r c, 0 <= r < h -> 0 <= c < w -> at_row_col w px r c = Some (e (f (c - cx origin, h - 1 - r - cy origin)))) /\
  (exists px, for_up (S (Z.to_nat h)) (- cy origin) (h - cy origin) (fun y => for_up (S (Z.to_nat w)) (- cx origin) (w - cx origin) (fun x =>
     bind (occ (x, y)) (fun o => bind (entry o) (fun v => Ok [v])))) = Ok px /\ Z.of_nat (length px) = h * w /\
     forall r c, 0 <= r < h -> 0 <= c < w -> at_row_col w px r c = Some (e (f (c - cx origin, r - cy origin)))).
Proof.
  intros Hw Hh Hocc Hent.
  assert (Row : forall y, - cy origin <= y < h - cy origin -> exists l, for_up (S (Z.to_nat w)) (- cx origin) (w - cx origin) (fun x =>
     bind (occ (x, y)) (fun o => bind (entry o) (fun v => Ok [v]))) = Ok l /\ Z.of_nat (length l) = w /\
     forall c, 0 <= c < w -> nth_error l (Z.to_nat c) = Some (e (f (c - cx origin, y)))).
  { intros y Hy. destruct (row_spec (fun x => bind (occ (x, y)) entry) (fun x => e (f (x, y))) (- cx origin) (w - cx origin) (S (Z.to_nat w))) as (l & E & L & G).
    - intros i Hi. rewrite Hocc by (split; cbn; assumption). cbn [bind]. apply Hent. split; cbn; assumption.
    - lia.
    - exists l. split; [|split; [lia|]].
      + rewrite <- E. clear -Hw. generalize (S (Z.to_nat w)) as n, (- cx origin) as i. induction n as [|n IH]; intros i; [reflexivity|]. cbn [for_up].
        destruct (i <? w - cx origin); [|reflexivity]. rewrite IH. destruct (occ (i, y)); reflexivity.
      + intros c Hc. rewrite G by lia. do 4 f_equal. lia. }
  set (body := fun y => for_up (S (Z.to_nat w)) (- cx origin) (w - cx origin) (fun x => bind (occ (x, y)) (fun o => bind (entry o) (fun v => Ok [v])))) in *.
  set (rowf := fun y => match body y with Ok l => l | _ => [] end).
  assert (Hok : rows_ok w body rowf (- cy origin) (h - cy origin)).
  { intros i Hi. destruct (Row i Hi) as (l & E & L & _). change (body i = Ok l) in E. unfold rowf. rewrite E. split; [reflexivity|exact L]. }
  assert (Hnth : forall y c, - cy origin <= y < h - cy origin -> 0 <= c < w -> nth_error (rowf y) (Z.to_nat c) = Some (e (f (c - cx origin, y)))).
  { intros y c Hy Hc. destruct (Row y Hy) as (l & E & _ & G). change (body y = Ok l) in E. unfold rowf. rewrite E. apply G. exact Hc. }
  split.
  - destruct (for_down_spec w (- cy origin) body rowf (S (Z.to_nat h)) (h - cy origin - 1)) as (l & E & L & G).
    + replace (h - cy origin - 1 + 1) with (h - cy origin) by lia. exact Hok.
    + lia.
    + exact Hw.
    + exists l. split; [exact E|]. split; [rewrite L; f_equal; lia|]. intros r c Hr Hc. rewrite G by lia.
      rewrite Hnth by lia. do 4 f_equal. lia.
  - destruct (for_up_spec w (h - cy origin) body rowf (S (Z.to_nat h)) (- cy origin)) as (l & E & L & G).
    + exact Hok.
    + lia.
    + exact Hw.
    + exists l. split; [exact E|]. split; [rewrite L; f_equal; lia|]. intros r c Hr Hc. rewrite G by lia.
      rewrite Hnth by lia. do 4 f_equal. lia.
Qed.

(** C48.  Every map with at most INT_MAX cells, whatever doubles its cells hold (NaN and infinities included): the dump
    succeeds and is a PGM file of the map's size with the cells top row first. *)
Theorem C48_pgm_dump :
  forall (w h : Z) (origin : coord) (occ : coord -> outcome F64) (f : coord -> F64),
  0 <= w -> 0 <= h -> w * h <= int_max -> (forall c, in_map w h origin c -> occ c = Ok (f c)) ->
  exists file px, dump_map occ w h origin = Ok file /\ pgm_file file w h 255 px /\ Z.of_nat (length px) = w * h /\
    forall r c, 0 <= r < h -> 0 <= c < w -> exists p, at_row_col w px r c = Some p /\ grey (f (c - cx origin, h - 1 - r - cy origin)) p.
Proof.
  intros w h origin occ f Hw Hh Hwh Hocc.
  destruct (picture pgm_intensity grey_fun occ f w h origin Hw Hh Hocc) as [(px & E & L & G) _]; [intros; apply grey_fun_spec|].
  exists (pgm_header w h ++ map (fun v => ascii_of_N (Z.to_N v)) px), px.
  assert (Hpx : forall p, In p px -> 0 <= p <= 255).
  { intros p I. apply In_nth_error in I. destruct I as [n Hn]. assert (Ln : (n < length px)%nat) by (apply nth_error_Some; rewrite Hn; discriminate).
    assert (0 < w) by nia. assert (D := Z.div_mod (Z.of_nat n) w ltac:(lia)). assert (M := Z.mod_pos_bound (Z.of_nat n) w ltac:(lia)).
    assert (0 <= Z.of_nat n / w) by (apply Z.div_pos; lia). assert (Z.of_nat n / w < h) by (apply Z.div_lt_upper_bound; lia).
    specialize (G (Z.of_nat n / w) (Z.of_nat n mod w) ltac:(lia) ltac:(lia)). unfold at_row_col in G.
    replace (Z.to_nat (Z.of_nat n / w * w + Z.of_nat n mod w)) with n in G by (rewrite (Z.mul_comm _ w), <- D; lia).
    rewrite Hn in G. injection G as ->. destruct (grey_fun_spec (f (Z.of_nat n mod w - cx origin, h - 1 - Z.of_nat n / w - cy origin))) as [_ [[_ ->]|(_ & B & _)]]; [lia|exact B]. }
  split; [|split; [|split; [lia|]]].
  - unfold dump_map, pgm_pixels. rewrite E. cbn [bind].
    assert (in_int (w * h) = true) as -> by (unfold in_int, int_min; apply andb_true_iff; split; apply Z.leb_le; nia).
    cbn [bind]. rewrite L, Z.mul_comm, Z.eqb_refl. reflexivity.
  - exists (to_string w), (to_string h), (to_string 255), (map (fun v => ascii_of_N (Z.to_N v)) px).
    split; [apply to_string_decimal; lia|]. split; [apply to_string_decimal; lia|]. split; [apply to_string_decimal; lia|]. split.
    + unfold pgm_header. rewrite <- !app_assoc. reflexivity.
    + rewrite map_map. rewrite <- (map_id px) at 2. apply map_ext_in. intros p I. specialize (Hpx p I). rewrite N_ascii_embedding; lia.
  - intros r c Hr Hc. eexists. split; [apply G; assumption|]. apply grey_fun_spec.
Qed.
Print Assumptions C48_pgm_dump.

(** the more occupied of two known cells is never lighter *)
Theorem C48_darker_when_more_occupied : forall (a b : F64) pa pb, deq a (dofZ (-1)) = false -> deq b (dofZ (-1)) = false -> dle a b = true ->
  pgm_intensity a = Ok pa -> pgm_intensity b = Ok pb -> pb <= pa.
Proof.
  intros a b pa pb Na Nb L Ia Ib. destruct (intensity_known a Na) as (va & Ca & Ea). destruct (intensity_known b Nb) as (vb & Cb & Eb).
  rewrite Ea in Ia. rewrite Eb in Ib. injection Ia as <-. injection Ib as <-. apply shade_antitone. exact (clamped_le _ _ _ _ L Ca Cb).
Qed.
Print Assumptions C48_darker_when_more_occupied.

(** the dump of an unbounded map after any history of observations shows its cells *)
Theorem C48_dump_after_history :
  forall (Ob : Type) (C : Type) (prob : C -> F64) (cell_upd : C -> Ob -> C) (proto : C) (w h M : Z) (ops : list (map_op C Ob)) m,
  1 <= w -> 1 <= h -> 0 <= M -> 4 * M + 2 * Z.max w h < 2 ^ 31 -> (forall op, In op ops -> within M (w_coord (op_write op))) ->
  unb_run (ops := FOps) cell_upd (pmap_new proto w h) ops = Ok m -> 0 <= p_w m -> 0 <= p_h m -> p_w m * p_h m <= int_max ->
  exists file px, dump_map (fun c => bind (unb_get m c) (fun v => Ok (prob v))) (p_w m) (p_h m) (p_origin m) = Ok file /\
    pgm_file file (p_w m) (p_h m) 255 px /\
    forall r c, 0 <= r < p_h m -> 0 <= c < p_w m -> exists p, at_row_col (p_w m) px r c = Some p /\
      grey (prob (t_run cell_upd (t_init proto) (map op_write ops) (c - cx (p_origin m), p_h m - 1 - r - cy (p_origin m)))) p.
Proof.
  intros Ob C prob cell_upd proto w h M ops m Hw Hh HM Hb Hops Em Hpw Hph Hsz.
  destruct (C05_unbounded_plain_map_refines_total_map C Ob cell_upd proto w h M ops Hw Hh HM Hb Hops) as (m' & Em' & G & _).
  rewrite Em in Em'. injection Em' as <-.
  destruct (C48_pgm_dump (p_w m) (p_h m) (p_origin m) (fun c => bind (unb_get m c) (fun v => Ok (prob v))) (fun c => prob (t_run cell_upd (t_init proto) (map op_write ops) c)) Hpw Hph Hsz) as (file & px & E & P & _ & Q).
  - intros c _. rewrite G. reflexivity.
  - exists file, px. split; [exact E|]. split; [exact P|exact Q].
Qed.
Print Assumptions C48_dump_after_history.

(** One file per update: after n updates of a fresh dumper the file <base>_<i>.pgm holds the dump of the i-th map, for every
    i < n (a later dump never overwrites an earlier one), and all other files are as they were. *)
Lemma decimal_nonneg s z : decimal s z -> 0 <= z.
Proof. induction 1 as [c d [B _]|s z c d _ IH [B _]]; lia. Qed.
Lemma decimal_not_empty s z : decimal s z -> s <> [].
Proof. destruct 1; [discriminate|]. intros E. apply app_eq_nil in E. destruct E. discriminate. Qed.
Lemma decimal_fun s z z' : decimal s z -> decimal s z' -> z = z'.
Proof.
  intros A. revert z'. induction A as [c d [B E]|s z c d A IH [B E]]; intros z' B'; inversion B' as [c' d' [Bd' E'] Hs|s2 z2 c' d' A' [Bd' E'] Hs]; subst.
  - lia.
  - destruct s2; [destruct (decimal_not_empty _ _ A' eq_refl)|]. injection Hs as _ H. symmetry in H. destruct s2; discriminate H.
  - destruct s; [destruct (decimal_not_empty _ _ A eq_refl)|]. injection Hs as _ H. destruct s; discriminate H.
  - apply app_inj_tail in Hs. destruct Hs as [-> ->]. specialize (IH _ A'). lia.
Qed.
Definition dump_name (base s : str) : str := base ++ lit "_" ++ s ++ lit ".pgm".
Lemma dump_name_inj base s s' : dump_name base s = dump_name base s' -> s = s'.
Proof. unfold dump_name. intros E. apply app_inv_head in E. apply app_inv_head in E. apply app_inv_tail in E. exact E. Qed.
Definition a_map : Type := (coord -> outcome F64) * Z * Z * coord.
Definition dump_of (m : a_map) : outcome str := let '(occ, w, h, origin) := m in dump_map occ w h origin.
Fixpoint dumps (base : str) (ms : list a_map) (st : Z * (str -> option str)) : outcome (Z * (str -> option str)) :=
  match ms with
  | [] => Ok st
  | (occ, w, h, origin) :: ms => bind (dumper_update base occ w h origin st) (dumps base ms)
  end.
Lemma dumps_spec base : forall ms id fs, 0 <= id -> id + Z.of_nat (length ms) < 2 ^ 64 -> (forall m, In m ms -> exists file, dump_of m = Ok file) ->
  exists fs', dumps base ms (id, fs) = Ok (id + Z.of_nat (length ms), fs') /\
    (forall i m, nth_error ms i = Some m -> Some (fs' (pgm_file_name base (id + Z.of_nat i))) = match dump_of m with Ok f => Some (Some f) | _ => None end) /\
    (forall f, (forall i, (i < length ms)%nat -> f <> pgm_file_name base (id + Z.of_nat i)) -> fs' f = fs f).
Proof.
  assert (Inj : forall i j, 0 <= i -> 0 <= j -> pgm_file_name base i = pgm_file_name base j -> i = j).
  { intros i j Hi Hj E. unfold pgm_file_name in E. rewrite <- !app_assoc in E. apply dump_name_inj in E.
    apply (decimal_fun (to_string i)); [apply to_string_decimal; exact Hi|]. rewrite E. apply to_string_decimal; exact Hj. }
  induction ms as [|m ms IH]; intros id fs Hid Hn Hok.
  - exists fs. cbn [dumps length Z.of_nat]. rewrite Z.add_0_r. split; [reflexivity|]. split; [intros [|i] m H; discriminate H|reflexivity].
  - destruct (Hok m (or_introl eq_refl)) as [file Ef]. cbn [length] in Hn. rewrite Nat2Z.inj_succ in Hn.
    destruct m as [[[occ w] h] origin]. cbn [dumps]. cbn [dump_of] in Ef. unfold dumper_update. rewrite Ef. cbn [bind]. rewrite Z.mod_small by lia.
    set (fs1 := fun f : str => if str_eqb f (pgm_file_name base id) then Some file else fs f).
    destruct (IH (id + 1) fs1 ltac:(lia) ltac:(lia)) as (fs' & E & G & O); [intros m Hm; apply Hok; right; exact Hm|].
    exists fs'. split; [rewrite E; f_equal; f_equal; cbn [length]; lia|]. split.
    + intros [|i] m Hm.
      * injection Hm as <-. cbn [dump_of]. rewrite Ef. f_equal. rewrite Z.add_0_r, O.
        -- unfold fs1. assert (str_eqb (pgm_file_name base id) (pgm_file_name base id) = true) as -> by (apply str_eqb_eq; reflexivity). reflexivity.
        -- intros i Hi E'. apply Inj in E'; lia.
      * cbn [nth_error] in Hm. rewrite <- (G i m Hm). do 3 f_equal. lia.
    + intros f Hf. rewrite O.
      * unfold fs1. destruct (str_eqb f (pgm_file_name base id)) eqn:E'; [|reflexivity]. apply str_eqb_eq in E'. exfalso. apply (Hf 0%nat); [cbn; lia|]. rewrite Z.add_0_r. exact E'.
      * intros i Hi E'. apply (Hf (S i)); [cbn; lia|]. rewrite E'. f_equal. lia.
Qed.
Theorem C48_one_file_per_update :
  forall (base : str) (ms : list a_map) (fs : str -> option str),
  Z.of_nat (length ms) < 2 ^ 64 -> (forall m, In m ms -> exists file, dump_of m = Ok file) ->
  exists fs', dumps base ms (0, fs) = Ok (Z.of_nat (length ms), fs') /\
    (forall i m, nth_error ms i = Some m -> exists s file, decimal s (Z.of_nat i) /\ dump_of m = Ok file /\ fs' (dump_name base s) = Some file) /\
    (forall f, (forall i s, (i < length ms)%nat -> decimal s (Z.of_nat i) -> f <> dump_name base s) -> fs' f = fs f).
Proof.
  intros base ms fs Hn Hok. destruct (dumps_spec base ms 0 fs ltac:(lia) ltac:(lia) Hok) as (fs' & E & G & O).
  assert (N : forall i, pgm_file_name base i = dump_name base (to_string i)) by (intros i; unfold pgm_file_name, dump_name; rewrite <- app_assoc; reflexivity).
  exists fs'. split; [exact E|]. split.
  - intros i m Hm. exists (to_string (Z.of_nat i)). destruct (Hok m (nth_error_In _ _ Hm)) as [file Ef]. exists file.
    split; [apply to_string_decimal; lia|]. split; [exact Ef|]. specialize (G i m Hm). rewrite Ef, N in G. injection G as ->. reflexivity.
  - intros f Hf. apply O. intros i Hi. rewrite N. apply (Hf i); [exact Hi|]. apply to_string_decimal. lia.
Qed.
Print Assumptions C48_one_file_per_update.

(** a 2 x 2 map: unknown, free / 0.25, occupied; the top row is written first *)
Definition ex_occ (c : coord) : outcome F64 :=
  Ok (if coord_eqb c (-1, 0) then dofZ (-1) else if coord_eqb c (0, 0) then dofZ 0 else if coord_eqb c (-1, -1) then dlit 1 4 else dofZ 1).
Example C48_case : dump_map ex_occ 2 2 (1, 1) = Ok (lit "P5" ++ [nl] ++ lit "2" ++ [nl] ++ lit "2" ++ [nl] ++ lit "255" ++ [nl] ++ map ascii_of_N [127; 255; 191; 0]%N).
Proof. vm_compute. reflexivity. Qed.

Example C48_files_case : match dumps (lit "m") (repeat (ex_occ, 2, 2, (1, 1)) 11) (0, fun _ => None) with
  Ok (11, fs) => match fs (lit "m_10.pgm"), fs (lit "m_0.pgm"), fs (lit "m_11.pgm") with Some _, Some _, None => True | _, _, _ => False end | _ => False end.
Proof. vm_compute. exact I. Qed.

(** C49.  One entry per cell, row-major from the lower left cell; -1 for an occupancy of -1 and the truncated percentage for
    an occupancy in [0, 1] (the truncation is that of the rounded product: 0.15, slightly less than 15%, is published as 15). *)
Theorem C49_grid_data_partial :
  forall (w h : Z) (origin : coord) (occ : coord -> outcome F64) (f : coord -> F64),
  0 <= w -> 0 <= h -> (forall c, in_map w h origin c -> occ c = Ok (f c)) ->
  (forall c, in_map w h origin c -> deq (f c) (dofZ (-1)) = true \/ (F_fin (f c) = true /\ (0 <= F2R64 (f c) <= 1)%R)) ->
  exists data, grid_data occ w h origin = Ok data /\ Z.of_nat (length data) = w * h /\
    forall r c, 0 <= r < h -> 0 <= c < w -> exists e, at_row_col w data r c = Some e /\
      (deq (f (c - cx origin, r - cy origin)) (dofZ (-1)) = true /\ e = -1 \/
       deq (f (c - cx origin, r - cy origin)) (dofZ (-1)) = false /\ percentage (f (c - cx origin, r - cy origin)) e).
Proof.
  intros w h origin occ f Hw Hh Hocc Hv.
  set (g := fun o => match grid_entry o with Ok p => p | _ => 0 end).
  assert (Hg : forall c, in_map w h origin c -> grid_entry (f c) = Ok (g (f c)) /\
     (deq (f c) (dofZ (-1)) = true /\ g (f c) = -1 \/ deq (f c) (dofZ (-1)) = false /\ percentage (f c) (g (f c)))).
  { intros c Hc. unfold g. destruct (Hv c Hc) as [E|[F B]].
    - rewrite entry_unknown by exact E. split; [reflexivity|]. left. split; [exact E|reflexivity].
    - destruct (entry_val _ F B) as [E Bd]. rewrite E. split; [reflexivity|]. right. split.
      + destruct (deq (f c) (dofZ (-1))) eqn:Q; [|reflexivity]. exfalso. destruct F_m1f as [Fm Em]. apply (F_eq_fin _ _ F Fm) in Q. rewrite Em in Q. lra.
      + split; [exact Bd|apply entry_close; exact B]. }
  destruct (picture grid_entry g occ f w h origin Hw Hh Hocc) as [_ (px & E & L & G)]; [intros c Hc; apply Hg; exact Hc|].
  exists px. split; [exact E|]. split; [lia|]. intros r c Hr Hc. eexists. split; [apply G; assumption|]. apply Hg. unfold in_map, cx, cy; cbn; lia.
Qed.
Print Assumptions C49_grid_data_partial.

(** the origin: the lower left corner is minus the origin cell, at the published resolution, up to a relative error of 2^-22
    (single precision) *)
Theorem C49_position_partial : forall (scale : F64) (o : Z), F_fin scale = true -> (Rabs (F2R64 scale) <= bpow radix2 64)%R -> Z.abs o <= 2 ^ 31 ->
  is_finite 24 128 (info_position scale o) = true /\
  (Rabs (F2R32 (info_position scale o) + F2R32 (info_resolution scale) * IZR o) <=
    bpow radix2 (-22) * Rabs (F2R32 (info_resolution scale) * IZR o) + bpow radix2 (-80))%R /\
  (Rabs (F2R32 (info_resolution scale) - F2R64 scale) <= bpow radix2 (-24) * Rabs (F2R64 scale) + bpow radix2 (-150))%R.
Proof.
  intros scale o Fs Hs Ho. destruct (position_correct scale o Fs Hs Ho) as (A & _ & Er & _). split; [exact A|]. split; [apply position_close; assumption|].
  rewrite Er. destruct (rnd32_err (F2R64 scale)) as (e & d & He & Hd & E). rewrite E.
  replace (F2R64 scale * (1 + e) + d - F2R64 scale)%R with (e * F2R64 scale + d)%R by ring.
  eapply Rle_trans; [apply Rabs_triang|]. apply Rplus_le_compat; [|exact Hd]. rewrite Rabs_mult. apply Rmult_le_compat_r; [apply Rabs_pos|exact He].
Qed.
Print Assumptions C49_position_partial.
(** the world origin is the corner of external cell (0, 0) only up to that error: with 0.1 m per cell and 3 cells to the left *)
Theorem C49_position_exact_refuted : ~ forall (scale : F64) (o : Z), F_fin scale = true -> (Rabs (F2R64 scale) <= bpow radix2 64)%R -> Z.abs o <= 2 ^ 31 ->
  (F2R32 (info_position scale o) + F2R32 (info_resolution scale) * IZR o = 0)%R.
Proof.
  intros H. specialize (H (dlit 1 10) 3 eq_refl).
  assert (Hs : (Rabs (F2R64 (dlit 1 10)) <= bpow radix2 64)%R).
  { destruct (F_dlit_correct 1 10) as [E _]; [cbn; lia|cbn; lia|apply no_ovf_1; lra|]. rewrite E. assert (B : (0 <= rnd (1 / 10) <= 1)%R) by (apply rnd_between; [apply fmt_0|apply fmt_1|lra]).
    rewrite Rabs_pos_eq by lra. apply Rle_trans with 1%R; [lra|]. apply (bpow_le radix2 0 64). lia. }
  specialize (H Hs ltac:(cbn; lia)). unfold F2R32 in H.
  assert (Ep : B2R 24 128 (info_position (dlit 1 10) 3) = F2R (Float radix2 (-10066330) (-25))) by reflexivity.
  assert (Er : B2R 24 128 (info_resolution (dlit 1 10)) = F2R (Float radix2 13421773 (-27))) by reflexivity.
  rewrite Ep, Er in H. unfold F2R in H. cbn in H. lra.
Qed.
Print Assumptions C49_position_exact_refuted.

(** "-1 for unknown cells" fails: a cell that no observation was ever merged into ([is_unknown]) has occupancy 0.5 in the naive
    and TBM cell models, and is published as 50. *)
Theorem C49_unknown_cells_refuted :
  c_unknown (affine_new : gcell F64) = true /\ grid_entry (c_prob (affine_new : gcell F64)) = Ok 50 /\
  c_unknown (m_cell (mean_new : mcell F64)) = true /\ grid_entry (c_prob (m_cell (mean_new : mcell F64))) = Ok 50 /\
  c_unknown (tc_cell (tcell_new : tcell F64)) = true /\ grid_entry (c_prob (tc_cell (tcell_new : tcell F64))) = Ok 50 /\
  c_unknown (g_cell (gm_new : gmcell F64)) = true /\ grid_entry (c_prob (g_cell (gm_new : gmcell F64))) = Ok (-1).
Proof. vm_compute. tauto. Qed.
Print Assumptions C49_unknown_cells_refuted.
Example C49_case : grid_data ex_occ 2 2 (1, 1) = Ok [25; 100; -1; 0].
Proof. vm_compute. reflexivity. Qed.
Example C49_position_case : F_fin (dlit 1 20 : F64) = true /\ B2FF 24 128 (info_position (dlit 1 20) 100) = F754_finite true 10485760 (-21).
Proof. split; [reflexivity|]. vm_compute. reflexivity. Qed.
(** 0.15 is below fifteen percent, and published as 15: the bound of C49_grid_data_partial cannot be made exact *)
Example C49_rounding : grid_entry (dlit 15 100 : F64) = Ok 15.
Proof. vm_compute. reflexivity. Qed.

(** When the clock does not run backwards: published grids are at least the interval apart, and a map update is only skipped
    less than the interval after a published one (or after the publisher's initial time). *)
Fixpoint clock_ok (t : Z) (calls : list (Z * Z)) : Prop :=
  match calls with [] => True | (now, fin) :: rest => t <= now <= fin /\ clock_ok fin rest end.
Theorem C49_publishing_interval :
  forall (p : publisher) (calls : list (Z * Z)), clock_ok (pub_last p) calls -> 0 <= pub_interval p ->
  length (publish_run p calls) = length calls /\
  (forall j now fin, nth_error calls j = Some (now, fin) -> nth_error (publish_run p calls) j = Some true ->
     pub_last p + pub_interval p <= now /\
     forall i now' fin', (i < j)%nat -> nth_error calls i = Some (now', fin') -> nth_error (publish_run p calls) i = Some true -> fin' + pub_interval p <= now) /\
  (forall j now fin, nth_error calls j = Some (now, fin) -> nth_error (publish_run p calls) j = Some false ->
     now < pub_last p + pub_interval p \/
     exists i now' fin', (i < j)%nat /\ nth_error calls i = Some (now', fin') /\ nth_error (publish_run p calls) i = Some true /\ now < fin' + pub_interval p).
Proof.
  intros p calls. revert p. induction calls as [|[now fin] calls IH]; intros p Hc Hi.
  - split; [reflexivity|]. split; intros [|j] ? ? H; discriminate H.
  - cbn [clock_ok] in Hc. destruct Hc as [Hn Hc]. cbn [publish_run]. unfold publish_step. destruct (Z.ltb_spec (now - pub_last p) (pub_interval p)) as [L|L].
    + assert (Hc' : clock_ok (pub_last p) calls).
      { clear -Hc Hn. destruct calls as [|[n f] calls]; [exact I|]. cbn in *. split; [lia|tauto]. }
      destruct (IH p Hc' Hi) as (A & B & C). split; [cbn [length]; congruence|]. split.
      * intros [|j] n f Hj Pj; [discriminate Pj|]. destruct (B j n f Hj Pj) as [B1 B2]. split; [exact B1|].
        intros [|i] n' f' Hij Hi' Pi; [discriminate Pi|]. apply (B2 i n' f'); [lia|exact Hi'|exact Pi].
      * intros [|j] n f Hj Pj.
        -- injection Hj as -> ->. left. lia.
        -- destruct (C j n f Hj Pj) as [X|(i & n' & f' & Hij & Hi' & Pi & X)]; [left; exact X|right]. exists (S i), n', f'. split; [lia|]. split; [exact Hi'|]. split; [exact Pi|exact X].
    + destruct (IH (mkPub fin (pub_interval p)) Hc Hi) as (A & B & C). cbn [pub_last pub_interval] in *. split; [cbn [length]; congruence|]. split.
      * intros [|j] n f Hj Pj.
        -- injection Hj as -> ->. split; [lia|]. intros i n' f' Hij. lia.
        -- destruct (B j n f Hj Pj) as [B1 B2]. split; [lia|]. intros [|i] n' f' Hij Hi' Pi.
           ++ injection Hi' as -> ->. exact B1.
           ++ apply (B2 i n' f'); [lia|exact Hi'|exact Pi].
      * intros [|j] n f Hj Pj; [discriminate Pj|]. right. destruct (C j n f Hj Pj) as [X|(i & n' & f' & Hij & Hi' & Pi & X)].
        -- exists 0%nat, now, fin. split; [lia|]. split; [reflexivity|]. split; [reflexivity|exact X].
        -- exists (S i), n', f'. split; [lia|]. split; [exact Hi'|]. split; [exact Pi|exact X].
Qed.
Print Assumptions C49_publishing_interval.
Example C49_interval_case : publish_run (mkPub 0 5) [(3, 3); (7, 8); (12, 12); (13, 14)] = [false; true; false; true] /\ clock_ok 0 [(3, 3); (7, 8); (12, 12); (13, 14)].
Proof. split; [reflexivity|]. cbn. lia. Qed.
