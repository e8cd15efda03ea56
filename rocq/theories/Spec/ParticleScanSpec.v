(** What the particles of a GMapping filter ask of the scan matcher and of the scan adder, seen from outside. *)
From Coq Require Import Reals List.
From Verif.Base Require Import Outcome Num.
From Verif.Model Require Import MathUtils Geometry Sensor World ParticleFilter Gmapping.
Import ListNotations.
Local Open Scope R_scope.
Local Open Scope outcome_scope.

(** one question to the scan matcher: the pose it starts from, and its answer (score, correction) *)
Record call (D : Type) := mkCall { c_start : pose D; c_score : D; c_corr : pose D }.
Arguments mkCall {D}. Arguments c_start {D}. Arguments c_score {D}. Arguments c_corr {D}.
(** one scan added to a map: pose, scan, quality, hole width *)
Record upload (D S : Type) := mkUp { u_pose : pose D; u_scan : S; u_quality : D; u_margin : D }.
Arguments mkUp {D S}. Arguments u_pose {D S}. Arguments u_scan {D S}. Arguments u_quality {D S}. Arguments u_margin {D S}.

Section Watch.
  Context {D S M SM : Type} (sm : SM -> S -> pose D -> M -> outcome (D * pose D * SM)) (adder : M -> pose D -> S -> D -> D -> outcome M).
  (** any matcher and any adder, with a log of their calls *)
  Definition watch_sm (k : SM * list (call D)) (s : S) (p : pose D) (m : M * list (upload D S)) : outcome (D * pose D * (SM * list (call D))) :=
    '(score, corr, k') <- sm (fst k) s p (fst m) ;; Ok (score, corr, (k', snd k ++ [mkCall p score corr])).
  Definition watch_adder (m : M * list (upload D S)) (p : pose D) (s : S) (q mg : D) : outcome (M * list (upload D S)) :=
    m' <- adder (fst m) p s q mg ;; Ok (m', snd m ++ [mkUp p s q mg]).
End Watch.
Definition calls {D} (answers : list (option (call D))) : list (call D) := flat_map (fun a => match a with Some c => [c] | None => [] end) answers.

(** ** what a particle does with a scan, in any arithmetic ([dlt], [dadd], ... are its comparison and operations) *)
Section Uses.
  Context {D : Type} {ops : DOps D} {S G RV : Type} (rv_sample : RV -> G -> pose D * RV * G).
  Local Notation gp := (gparticle D G RV).
  (** the way since the last match is below the drawn limits *)
  Definition squared_length (p : pose D) : D := dadd (dmul (px p) (px p)) (dmul (py p) (py p)).
  Definition short_way (x : gp) : Prop :=
    dlt (squared_length (gp_since x)) (squared_length (gp_next x)) = true /\ dlt (dabs (pth (gp_since x))) (pth (gp_next x)) = true.
  (** the pose the matcher starts from: with noise, unless the particle has added no scan yet *)
  Definition guess_of (x : gp) : pose D := if gp_first x then gp_pose x else pose_add (gp_pose x) (fst (fst (rv_sample (gp_guess x) (gp_engine x)))).
  Definition uses (x : gp) (a : option (call D)) (v : D) (q : pose D) : Prop :=
    match a with
    | None => short_way x /\ v = gp_weight x /\ q = gp_pose x
    | Some c => ~ short_way x /\ c_start c = guess_of x /\ v = dmul (c_score c) (gp_weight x) /\ q = pose_add (c_start c) (c_corr c)
    end.
  (** the scan goes to the map at the corrected pose when the matcher gave a positive score, and the first time in any case *)
  Definition adds (s : tr_scan D S) (x : gp) (a : option (call D)) (us : list (upload D S)) : Prop :=
    match a with
    | None => us = []
    | Some c => (dlt (dofZ 0) (c_score c) = true \/ gp_first x = true -> us = [mkUp (pose_add (c_start c) (c_corr c)) (ts_scan s) (ts_quality s) (dofZ 0)]) /\
                (dlt (dofZ 0) (c_score c) = false -> gp_first x = false -> us = [])
    end.
  (** afterwards: a particle that added the scan has had its first; after a match the way starts again with a new limit *)
  Definition goes_on (x : gp) (a : option (call D)) (us : list (upload D S)) (y : gp) : Prop :=
    gp_first y = match us with [] => gp_first x | _ => false end /\
    match a with
    | None => gp_since y = gp_since x /\ gp_next y = gp_next x
    | Some _ => gp_since y = mkPose (dofZ 0) (dofZ 0) (dofZ 0) /\ exists g, gp_next y = fst (fst (rv_sample (gp_lim x) g))
    end.
  (** all the particles, in order *)
  Inductive scan_all (s : tr_scan D S) : list gp -> list (option (call D)) -> list (upload D S) -> list gp -> Prop :=
  | sa_nil : scan_all s [] [] [] []
  | sa_cons x a us y xs ans vs ys : uses x a (gp_weight y) (gp_pose y) -> adds s x a us -> goes_on x a us y -> scan_all s xs ans vs ys -> scan_all s (x :: xs) (a :: ans) (us ++ vs) (y :: ys).
  (** the sum of the weights, added in order *)
  Definition sum_in_order (ws : list D) : D := fold_left dadd ws (dofZ 0).
End Uses.
(** the particles behind two pointers are equal *)
Definition twins {D M SM G RV} (f : gfilter D M SM G RV) (p q : nat) : Prop :=
    In p (pf_ptrs (gf_pf f)) /\ In q (pf_ptrs (gf_pf f)) /\ exists x, nth_error (pf_heap (gf_pf f)) p = Some x /\ nth_error (pf_heap (gf_pf f)) q = Some x.

(** ** the single-hypothesis world *)
(** the correction is more than 1e-7 in a component *)
Definition corrected (d : pose R) : Prop := 1 / 10000000 < Rabs (px d) \/ 1 / 10000000 < Rabs (py d) \/ 1 / 10000000 < Rabs (pth d).
Fixpoint explained {S} (q_localized q_raw margin : R) (p : pose R) (scans : list (tr_scan R S)) (cs : list (call R)) (us : list (upload R S)) (last : pose R) : Prop :=
  match scans, cs, us with
  | [], [], [] => last = p
  | s :: scans, c :: cs, u :: us =>
      c_start c = pose_add p (ts_delta s) /\ u_pose u = pose_add (c_start c) (c_corr c) /\ u_scan u = ts_scan s /\ u_margin u = margin /\
      (corrected (c_corr c) -> u_quality u = q_localized) /\ (~ corrected (c_corr c) -> u_quality u = q_raw) /\
      explained q_localized q_raw margin (u_pose u) scans cs us last
  | _, _, _ => False
  end.
Definition scans_of {S} (h : list (wevent R S)) : list (tr_scan R S) := flat_map (fun e => match e with EScan s => [s] | _ => [] end) h.
