(** What the particles of a GMapping filter added to the common map, scan by scan. *)
From Coq Require Import ZArith List.
From Verif.Base Require Import Outcome Num.
From Verif.Model Require Import Geometry Sensor World ParticleFilter Gmapping WholeSlam.
From Verif.Spec Require Import WholeMapSpec.
Import ListNotations.

(** some of the elements, in their order *)
Inductive subseq {A} : list A -> list A -> Prop :=
| sub_nil l : subseq [] l
| sub_take x a l : subseq a l -> subseq (x :: a) (x :: l)
| sub_skip x a l : subseq a l -> subseq a (x :: l).

(** a scan: the poses of all the particles when it was handled (corrected, before resampling), and what was added to the map *)
Record gm_step := mkStep { st_poses : list (pose F64); st_added : list entry }.
(** the additions are this scan, with its quality, at the poses of some of the particles, once per particle, in their order *)
Definition step_of {T} (n : nat) (s : tr_scan F64 (whole_scan F64 * T)) (st : gm_step) : Prop :=
  length (st_poses st) = n /\ subseq (map en_pose (st_added st)) (st_poses st) /\
  Forall (fun e => en_scan e = fst (ts_scan s) /\ en_quality e = ts_quality s) (st_added st).
(** everything added during some steps *)
Definition added (steps : list gm_step) : list entry := flat_map st_added steps.

(** a scan matcher and a scan adder that are watched: the map comes with the list of everything that was added to it *)
Notation watched_map := (amap F64 * list entry)%type.
Definition watching_sm {SM} (sm : SM -> whole_scan F64 -> pose F64 -> amap F64 -> outcome (F64 * pose F64 * SM))
    (k : SM) (s : whole_scan F64) (p : pose F64) (m : watched_map) : outcome (F64 * pose F64 * SM) := sm k s p (fst m).
Definition watching_adder (adder : amap F64 -> pose F64 -> whole_scan F64 -> F64 -> F64 -> outcome (amap F64))
    (m : watched_map) (p : pose F64) (s : whole_scan F64) (q margin : F64) : outcome watched_map :=
  (m' <- adder (fst m) p s q margin ;; Ok (m', snd m ++ [mkEntry p s q]))%out.
(** what a watched filter, and what it tells its observers, are without the lists *)
Definition unwatched {SM G RV} (f : gfilter F64 watched_map SM G RV) : gfilter F64 (amap F64) SM G RV :=
  mkGF (gf_pf f) (gf_trav f) (map fst (gf_maps f)) (gf_sm f).
Definition unwatched_note (n : wnote F64 watched_map) : wnote F64 (amap F64) :=
  match n with NPose id p => NPose id p | NMap id m => NMap id (fst m) end.
Definition omap {A B} (f : A -> B) (o : outcome A) : outcome B := (a <- o ;; Ok (f a))%out.
