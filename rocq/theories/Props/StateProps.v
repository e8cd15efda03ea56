(** C11-C13: serialized values, cells and maps. *)
From Coq Require Import ZArith List Lia Bool.
From Flocq Require Import IEEE754.Binary IEEE754.Bits.
From Verif.Base Require Import Outcome Num.
From Verif.Model Require Import MathUtils Geometry Grid PlainMap Serialization Cells MapState.
From Verif.Spec Require Import MapSpec.
From Verif.Proofs Require Import PlainMapProofs StateProofs.
Import ListNotations.
Local Open Scope Z_scope.

(** C11.  [fits]: ints are 32-bit, sizes 64-bit.  Values equal means bit for bit: [VDouble] carries the IEEE datum
    with its sign, NaN payload included. *)
Theorem C11_values_round_trip :
  forall (vs : list svalue) (before after : bytes), Forall fits vs ->
  read_values (add_values before vs ++ after) (length before) (map type_of vs)
  = Ok (vs, length (add_values before vs)).
Proof. exact add_values_read. Qed.
Print Assumptions C11_values_round_trip.

Definition C11_vals : list svalue :=
  [VInt (-7); VBool true; VSize (2 ^ 63 + 5); VDouble (b64_of_bits (2 ^ 63));
   VDouble (b64_of_bits (2047 * 2 ^ 52 + 12345)); VBool false; VInt (2 ^ 31 - 1)].
Example C11_case_hyps : Forall fits C11_vals.
Proof. unfold C11_vals. repeat constructor; cbn; lia. Qed.
Example C11_case_bytes : add_values [9] [VInt (-2); VBool true; VSize 258; VDouble (dofZ 1)]
  = [9; 254; 255; 255; 255; 1; 2; 1; 0; 0; 0; 0; 0; 0; 0; 0; 0; 0; 0; 0; 240; 63].
Proof. vm_compute. reflexivity. Qed.
(** reading past the end is an error of the program, not a value *)
Example C11_truncated : read_value [1; 2; 3] 0 TInt = UB.
Proof. reflexivity. Qed.

(** C12.  For every cell class whose codec restores cells exactly ([gcell_codec]: GridCell and
    AffineQualityMergeCell; [tcell_codec]: TBM and credibilist cells), every history of the saved map and every
    loading map of the same prototype. *)
Theorem C12_save_load_lossless :
  forall (C Ob : Type) (cell_upd : C -> Ob -> C) (cc : codec C) (proto : C) (w h M : Z)
         (ops : list (map_op C Ob)) (scale : F64) (m m0 : pmap C),
  (forall obj c before after,
     deser cc obj (before ++ ser cc c ++ after) (length before) = Ok (c, length (before ++ ser cc c))) ->
  1 <= w -> 1 <= h -> 0 <= M -> 4 * M + 2 * Z.max w h < 2 ^ 31 ->
  (forall op, In op ops -> within M (w_coord (op_write op))) ->
  unb_run (ops := FOps) cell_upd (pmap_new proto w h) ops = Ok m -> p_w m * p_h m < 2 ^ 31 ->
  p_proto m0 = proto ->
  exists data m', save_state cc m scale = Ok data /\ load_state cc m0 data = Ok (m', scale) /\
    p_w m' = p_w m /\ p_h m' = p_h m /\ p_origin m' = p_origin m /\
    forall c, unb_get m' c = unb_get m c.
Proof. intros C Ob. exact save_load_lossless. Qed.
Print Assumptions C12_save_load_lossless.

Theorem C12_exact_codecs :
  (forall obj c before after,
     deser gcell_codec obj (before ++ ser gcell_codec c ++ after) (length before)
     = Ok (c, length (before ++ ser gcell_codec c))) /\
  (forall obj c before after,
     deser tcell_codec obj (before ++ ser tcell_codec c ++ after) (length before)
     = Ok (c, length (before ++ ser tcell_codec c))).
Proof. split; [exact gcell_restores|exact tcell_restores]. Qed.
Print Assumptions C12_exact_codecs.

(** C12 for MeanProbabilityCell and GmappingBaseCell: the public values of every cell (occupancy, quality, unknown
    flag) are those of the saved map *)
Theorem C12_save_load_mean_cells :
  forall (Ob : Type) (cell_upd : mcell F64 -> Ob -> mcell F64) proto w h M ops scale m m0,
  1 <= w -> 1 <= h -> 0 <= M -> 4 * M + 2 * Z.max w h < 2 ^ 31 ->
  (forall op, In op ops -> within M (w_coord (op_write op))) ->
  unb_run (ops := FOps) cell_upd (pmap_new proto w h) ops = Ok m -> p_w m * p_h m < 2 ^ 31 ->
  p_proto m0 = proto ->
  exists data m', save_state mcell_codec m scale = Ok data /\ load_state mcell_codec m0 data = Ok (m', scale) /\
    p_w m' = p_w m /\ p_h m' = p_h m /\ p_origin m' = p_origin m /\
    forall c, exists v v', unb_get m c = Ok v /\ unb_get m' c = Ok v' /\ m_cell v' = m_cell v.
Proof.
  intros Ob cell_upd proto w h M ops scale m m0 Hw Hh HM HB Hin Em Hwh Hp.
  destruct (save_load_reachable cell_upd mcell_codec _ mcell_restores proto w h M ops scale m m0 Hw Hh HM HB Hin Em Hwh)
    as (data & m' & Es & El & E1 & E2 & E3 & E4 & E5).
  exists data, m'. repeat (split; [assumption|]). intros c.
  destruct (unbounded_plain_refines cell_upd proto w h M ops Hw Hh HM HB Hin) as (m1 & E & HR & _).
  rewrite Em in E. injection E as <-.
  exists (t_run cell_upd (t_init proto) (map op_write ops) c). rewrite E5, HR.
  destruct (has_internal_cell _ _ _) eqn:Ei; eexists; (split; [reflexivity|]); (split; [reflexivity|]).
  - reflexivity.
  - specialize (HR c). unfold unb_get in HR. rewrite Ei in HR. injection HR as HR.
    rewrite <- HR, (unb_run_proto cell_upd ops _ _ Em), Hp. reflexivity.
Qed.
Print Assumptions C12_save_load_mean_cells.

(** a grown 3x2 map of affine cells *)
Definition obs64 (p q : F64) : aoo F64 := mkAoo true (mkOcc p (dofZ 1)) (dofZ 0, dofZ 0) q.
Definition C12_ops : list (map_op (gcell F64) (aoo F64)) :=
  [Update (0, 0) (obs64 (dlit 9 10) (dlit 1 2)); Update (2, -3) (obs64 (dlit 1 10) (dofZ 1))].
Definition probs_of (m : pmap (gcell F64)) (l : list coord) : list Z :=
  map (fun c => match unb_get m c with Ok v => bits_of_b64 (c_prob v) | _ => -1 end) l.
Definition C12_result : outcome (Z * Z * nat * list Z * list Z) :=
  bind (unb_run (ops := FOps) affine_upd (pmap_new affine_new 3 2) C12_ops) (fun m =>
  bind (save_state gcell_codec m (dlit 1 10)) (fun data =>
  bind (load_state gcell_codec (pmap_new affine_new 50 1) data) (fun '(m', _) =>
  Ok (p_w m', p_h m', length data, probs_of m [(0, 0); (2, -3)], probs_of m' [(0, 0); (2, -3)])))).
Example C12_case : exists a b, C12_result = Ok (4, 4, (24 + 17 * 16)%nat, [a; b], [a; b]) /\ a <> b.
Proof. eexists. eexists. split; [vm_compute; reflexivity|discriminate]. Qed.
Example C12_case_hyps : forall op, In op C12_ops -> within 3 (w_coord (op_write op)).
Proof. intros op H. cbn in H. unfold within. intuition (subst; cbn; lia). Qed.

(** C13.  [run upd c h]: the cell after the observations [h]. *)
Definition run {C} (upd : C -> aoo F64 -> C) (c : C) (h : list (aoo F64)) : C := fold_left upd h c.

(** true of GridCell and AffineQualityMergeCell ([gcell]) and of the TBM and credibilist cells ([tcell]):
    whatever cell object it is restored into, the restored cell continues as the original *)
Theorem C13_restored_cell_continues_partial :
  (forall (upd : gcell F64 -> aoo F64 -> gcell F64) (c0 obj : gcell F64) (h : list (aoo F64)),
   exists c' n, deser gcell_codec obj (ser gcell_codec (run upd c0 h)) 0 = Ok (c', n) /\
     forall h', run upd c' h' = run upd (run upd c0 h) h') /\
  (forall (upd : tcell F64 -> aoo F64 -> tcell F64) (c0 obj : tcell F64) (h : list (aoo F64)),
   exists c' n, deser tcell_codec obj (ser tcell_codec (run upd c0 h)) 0 = Ok (c', n) /\
     forall h', run upd c' h' = run upd (run upd c0 h) h').
Proof.
  split; intros upd c0 obj h.
  - assert (E := gcell_restores obj (run upd c0 h) [] []). rewrite app_nil_r in E. cbn [app length] in E.
    eexists. eexists. split; [exact E|]. reflexivity.
  - assert (E := tcell_restores obj (run upd c0 h) [] []). rewrite app_nil_r in E. cbn [app length] in E.
    eexists. eexists. split; [exact E|]. reflexivity.
Qed.
Print Assumptions C13_restored_cell_continues_partial.

(** false of MeanProbabilityCell: after three observations the restored cell (into a fresh object, as load_state
    does) reports the same occupancy, but the next observation replaces the mean *)
Definition C13_hist : list (aoo F64) := repeat (obs64 (dofZ 1) (dofZ 1)) 3.
Theorem C13_mean_cell_refuted :
  exists c' n, deser mcell_codec mean_new (ser mcell_codec (run mean_upd mean_new C13_hist)) 0 = Ok (c', n) /\
    m_cell c' = m_cell (run mean_upd mean_new C13_hist) /\
    deq (c_prob (m_cell (run mean_upd c' [obs64 (dofZ 0) (dofZ 1)]))) (dofZ 0) = true /\
    deq (c_prob (m_cell (run mean_upd (run mean_upd mean_new C13_hist) [obs64 (dofZ 0) (dofZ 1)]))) (dlit 3 4) = true.
Proof.
  assert (E := mcell_restores mean_new (run mean_upd mean_new C13_hist) [] []). rewrite app_nil_r in E. cbn [app length] in E.
  eexists. eexists. split; [exact E|]. split; [reflexivity|]. split; vm_compute; reflexivity.
Qed.
Print Assumptions C13_mean_cell_refuted.

(** false of GmappingBaseCell as well: the counters and the obstacle are lost *)
Definition gm_step (c : gmcell F64) (a : aoo F64) : gmcell F64 := match gm_upd c a with Ok c' => c' | _ => c end.
Theorem C13_gmapping_cell_refuted :
  exists c' n, deser gmcell_codec gm_new (ser gmcell_codec (run gm_step gm_new C13_hist)) 0 = Ok (c', n) /\
    g_cell c' = g_cell (run gm_step gm_new C13_hist) /\
    deq (c_prob (g_cell (run gm_step c' [obs64 (dofZ 0) (dofZ 1)]))) (dofZ 0) = true /\
    deq (c_prob (g_cell (run gm_step (run gm_step gm_new C13_hist) [obs64 (dofZ 0) (dofZ 1)]))) (dlit 3 4) = true.
Proof.
  assert (E := gmcell_restores gm_new (run gm_step gm_new C13_hist) [] []). rewrite app_nil_r in E. cbn [app length] in E.
  eexists. eexists. split; [exact E|]. split; [reflexivity|]. split; vm_compute; reflexivity.
Qed.
Print Assumptions C13_gmapping_cell_refuted.
