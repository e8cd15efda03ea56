(** Model of the grid cells: src/core/states/state_data.h, src/core/maps/{grid_cell,naive_grid_cells,
    tbm_grid_cells,transferable_belief_model}.h, src/slams/gmapping/gmapping_grid_cell.h,
    src/slams/credibilist/{grid_cell,TBM_prob_conversion}.h. *)
From Coq Require Import ZArith List Bool.
From Verif.Base Require Import Outcome Num.
From Verif.Model Require Import MathUtils Geometry PlainMap.
Import ListNotations.
Local Open Scope Z_scope.
Local Open Scope outcome_scope.

Section Cells.
  Context {D : Type} {ops : DOps D}.

  (** state_data.h:7-13 *)
  Record occup := mkOcc { prob_occ : D; est_quality : D }.
  (** state_data.h:23-25 *)
  Definition occ_valid (o : occup) : bool := negb (disnan (prob_occ o)) && negb (disnan (est_quality o)).
  (** state_data.h:42-47 *)
  Record aoo := mkAoo { a_is_occ : bool; a_occ : occup; a_obst : point D; a_quality : D }.

  Definition dhalf : D := dlit 1 2.     (* the literal 0.5 *)

  (** *** GridCell: grid_cell.h:55-56 *)
  Record gcell := mkGCell { c_occ : occup; c_unknown : bool }.
  (** grid_cell.h:11 *)
  Definition gcell_new (o : occup) : gcell := mkGCell o true.
  (** grid_cell.h:18 *)
  Definition c_prob (c : gcell) : D := prob_occ (c_occ c).
  (** grid_cell.h:27-30, 50-52 *)
  Definition gcell_upd (c : gcell) (a : aoo) : gcell := mkGCell (a_occ a) false.
  (** grid_cell.h:33-35 (Occupancy converts to double) *)
  Definition gcell_discrepancy (c : gcell) (a : aoo) : D := dabs (dsub (c_prob c) (prob_occ (a_occ a))).

  (** *** AffineQualityMergeCell: naive_grid_cells.h:6-21 *)
  Definition affine_new : gcell := gcell_new (mkOcc dhalf (dofZ 1)).
  Definition affine_upd (c : gcell) (a : aoo) : gcell :=
    if occ_valid (a_occ a) then
      let q := a_quality a in
      mkGCell (mkOcc (dadd (dmul (dsub (dofZ 1) q) (c_prob c)) (dmul q (prob_occ (a_occ a))))
                     (est_quality (c_occ c))) false
    else c.

  (** *** MeanProbabilityCell: naive_grid_cells.h:25-44; [_n] is a double *)
  Record mcell := mkMCell { m_cell : gcell; m_n : D }.
  Definition mean_new : mcell := mkMCell (gcell_new (mkOcc dhalf (dofZ 1))) (dofZ 0).
  Definition mean_upd (c : mcell) (a : aoo) : mcell :=
    if occ_valid (a_occ a) then
      let n := dadd (m_n c) (dofZ 1) in
      let that_p := dadd dhalf (dmul (dsub (prob_occ (a_occ a)) dhalf) (a_quality a)) in
      let p := ddiv (dadd (dmul (c_prob (m_cell c)) (dsub n (dofZ 1))) that_p) n in
      mkMCell (mkGCell (mkOcc p (est_quality (c_occ (m_cell c)))) false) n
    else c.

  (** *** GmappingBaseCell: gmapping_grid_cell.h:9-43; incrementing an int past INT_MAX is UB *)
  Record gmcell := mkGm { g_cell : gcell; g_hits : Z; g_tries : Z; g_obst : point D }.
  (** gmapping_grid_cell.h:14; Point2D's default is (0, 0) (geometry_primitives.h:12) *)
  Definition gm_new : gmcell := mkGm (gcell_new (mkOcc (dofZ (-1)) (dofZ 1))) 0 0 (dofZ 0, dofZ 0).
  Definition int_incr (z : Z) : outcome Z := if in_int (z + 1) then Ok (z + 1) else UB.
  (** gmapping_grid_cell.h:20-33 *)
  Definition gm_upd (c : gmcell) (a : aoo) : outcome gmcell :=
    if occ_valid (a_occ a) then
      tries <- int_incr (g_tries c) ;;
      let is_free := dle (prob_occ (a_occ a)) dhalf in
      let p := if is_free then dofZ 0 else prob_occ (a_occ a) in
      let p' := ddiv (dadd (dmul (c_prob (g_cell c)) (dofZ (tries - 1))) p) (dofZ tries) in
      let cell := mkGCell (mkOcc p' (est_quality (c_occ (g_cell c)))) false in
      if is_free then Ok (mkGm cell (g_hits c) tries (g_obst c))
      else
        hits <- int_incr (g_hits c) ;;
        let mean v o := ddiv (dadd (dmul v (dofZ (hits - 1))) o) (dofZ hits) in
        Ok (mkGm cell hits tries (mean (ptx (g_obst c)) (ptx (a_obst a)), mean (pty (g_obst c)) (pty (a_obst a))))
    else Ok c.
  (** gmapping_grid_cell.h:12, 35-38; [dexp] is std::exp *)
  Definition gm_dist_variance : D := dlit 5 100.
  Definition gm_discrepancy (dexp : D -> D) (c : gmcell) (a : aoo) : D :=
    dsub (dofZ 1) (dexp (ddiv (dopp (dist_sq (g_obst c) (a_obst a))) gm_dist_variance)).

  (** *** TBM: transferable_belief_model.h.  The array is indexed 0 = UNKNOWN, 1 = EMPTY, 2 = OCCUPIED,
      3 = CONFLICT (lines 13-19). *)
  Record tbm := mkTbm { t_unknown : D; t_empty : D; t_occupied : D; t_conflict : D }.
  (** transferable_belief_model.h:67-72 *)
  Definition tbm_default : tbm := mkTbm (dofZ 1) (dofZ 0) (dofZ 0) (dofZ 0).
  (** transferable_belief_model.h:74-77 (ids 0..3 only) *)
  Definition tbm_get (t : tbm) (id : Z) : D :=
    if id =? 0 then t_unknown t else if id =? 1 then t_empty t
    else if id =? 2 then t_occupied t else t_conflict t.
  (** tmp_beliefs[id] += v (lines 135, 154) *)
  Definition tbm_acc (t : tbm) (id : Z) (v : D) : tbm :=
    if id =? 0 then mkTbm (dadd (t_unknown t) v) (t_empty t) (t_occupied t) (t_conflict t)
    else if id =? 1 then mkTbm (t_unknown t) (dadd (t_empty t) v) (t_occupied t) (t_conflict t)
    else if id =? 2 then mkTbm (t_unknown t) (t_empty t) (dadd (t_occupied t) v) (t_conflict t)
    else mkTbm (t_unknown t) (t_empty t) (t_occupied t) (dadd (t_conflict t) v).
  (** transferable_belief_model.h:102-112 *)
  Definition tbm_normalize (t : tbm) : tbm :=
    let tot := dadd (dadd (dadd (t_unknown t) (t_empty t)) (t_occupied t)) (t_conflict t) in
    if deq tot (dofZ 0) then tbm_default
    else mkTbm (ddiv (t_unknown t) tot) (ddiv (t_empty t) tot) (ddiv (t_occupied t) tot) (ddiv (t_conflict t) tot).
  (** transferable_belief_model.h:114-124 *)
  Definition tbm_normalize_conflict (t : tbm) : tbm :=
    let w := dadd (dadd (t_unknown t) (t_empty t)) (t_occupied t) in
    if deq w (dofZ 0) then tbm_default
    else mkTbm (ddiv (t_unknown t) w) (ddiv (t_empty t) w) (ddiv (t_occupied t) w) (dofZ 0).
  (** the double loop of lines 133-138 and 152-157; [f] is the combination of the two indices *)
  Definition tbm_combine (f : Z -> Z -> Z) (l r : tbm) : tbm :=
    let zero := mkTbm (dofZ 0) (dofZ 0) (dofZ 0) (dofZ 0) in
    tbm_normalize
      (fold_left (fun acc i =>
         fold_left (fun acc j => tbm_acc acc (f i j) (dmul (tbm_get l i) (tbm_get r j))) [0; 1; 2; 3] acc)
         [0; 1; 2; 3] zero).
  (** transferable_belief_model.h:126-143 *)
  Definition conjunctive : tbm -> tbm -> tbm := tbm_combine Z.lor.
  (** transferable_belief_model.h:145-162 *)
  Definition disjunctive : tbm -> tbm -> tbm := tbm_combine Z.land.

  (** tbm_grid_cells.h:57-66; TBM_prob_conversion.h:13-22 is the same function *)
  Definition aoo2tbm (a : aoo) : tbm :=
    if occ_valid (a_occ a) then
      let p := prob_occ (a_occ a) in
      let q := dmul (est_quality (a_occ a)) (a_quality a) in
      let o := dmul p q in
      let e := dmul (dsub (dofZ 1) p) q in
      mkTbm (dsub (dsub (dofZ 1) o) e) e o (dofZ 0)
    else tbm_default.

  (** *** TbmBaseCell: tbm_grid_cells.h:8-79 and its two subclasses; [conv] is the virtual tbm2occ *)
  Record tcell := mkTCell { tc_cell : gcell; tc_belief : tbm }.
  (** tbm_grid_cells.h:89-93 TbmOccConsistentCell::tbm2occ *)
  Definition occ_consistent (t : tbm) : occup :=
    let q := dadd (t_occupied t) (t_empty t) in mkOcc (ddiv (t_occupied t) q) q.
  (** tbm_grid_cells.h:104-106 TbmUnknownEvenOccCell::tbm2occ; TBM_prob_conversion.h:8-10 is the same *)
  Definition occ_unknown_even (t : tbm) : occup :=
    mkOcc (dadd (t_occupied t) (dmul dhalf (t_unknown t))) (dofZ 1).
  (** tbm_grid_cells.h:10 *)
  Definition tcell_new : tcell := mkTCell (gcell_new (mkOcc dhalf (dofZ 1))) tbm_default.
  (** credibilist/grid_cell.h:13-16: Occupancy() then refresh_grid_cell() *)
  Definition cred_new : tcell := mkTCell (gcell_new (occ_unknown_even tbm_default)) tbm_default.
  (** tbm_grid_cells.h:12-19; credibilist/grid_cell.h:23-29 is the same with conv = occ_unknown_even *)
  Definition tcell_upd (conv : tbm -> occup) (c : tcell) (a : aoo) : tcell :=
    if occ_valid (a_occ a) then
      let b := tbm_normalize_conflict (conjunctive (tc_belief c) (aoo2tbm a)) in
      mkTCell (mkGCell (conv b) false) b
    else c.
  (** tbm_grid_cells.h:21-35 *)
  Definition tcell_discrepancy (c : tcell) (a : aoo) : D :=
    let that := aoo2tbm a in
    let total_unknown := dadd (t_unknown that) (t_unknown (tc_belief c)) in
    let d_occ := dabs (dsub (t_occupied that) (t_occupied (tc_belief c))) in
    let comb := conjunctive that (tc_belief c) in
    let unknown := ddiv total_unknown (dofZ 2) in
    let known := dsub (dofZ 1) unknown in
    let kd := ddiv (dmul known (dadd (t_conflict comb) d_occ)) (dofZ 2) in
    dadd (ddiv unknown (dofZ 2)) kd.
  (** credibilist/grid_cell.h:31-40 *)
  Definition cred_discrepancy (c : tcell) (a : aoo) : D :=
    dsub (dofZ 1) (t_occupied (disjunctive (aoo2tbm a) (tc_belief c))).
End Cells.
Arguments occup D : clear implicits.
Arguments aoo D : clear implicits.
Arguments gcell D : clear implicits.
Arguments mcell D : clear implicits.
Arguments gmcell D : clear implicits.
Arguments tbm D : clear implicits.
Arguments tcell D : clear implicits.
