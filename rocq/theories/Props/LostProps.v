(** C85: particle weights after scans that match nothing. *)
From Coq Require Import Reals ZArith List Lia Lra Bool.
From Flocq Require Import Core IEEE754.BinarySingleNaN IEEE754.Binary IEEE754.Bits.
From Verif.Base Require Import Outcome Num F64Facts OrdLaws.
From Verif.Model Require Import MathUtils Geometry Grid Cells Sensor Histogram World ParticleFilter Gmapping GmappingOope.
From Verif.Spec Require Import WorldSpec LostSpec.
From Verif.Proofs Require Import HistProofs ParticleProofs WorldProofs EmptyScanProofs LostProofs.
Import ListNotations.

(** Once no weight is a number, no history makes one a number again: the particles are never resampled and the reported pose is
    that of the last particle, whatever the matcher answers later.  Binary64; any matcher, adder, random variables. *)
Theorem C85_lost_weights_never_return_refuted :
  forall (S M SM G RV : Type) (dcos dsin : F64 -> F64) (rv_sample : RV -> G -> pose F64 * RV * G) (rv_copy : RV -> RV) (rv_zero : RV)
    (sm_process : SM -> S -> pose F64 -> M -> outcome (F64 * pose F64 * SM)) (adder : M -> pose F64 -> S -> F64 -> F64 -> outcome M)
    guess lim seeds m0 k0 n f0 o history o1 f ns1 o2 later o3 f' ns2,
  let run := gf_run dcos dsin rv_sample rv_copy rv_zero sm_process adder in
  (0 < n)%nat -> gf_new rv_sample rv_copy rv_zero guess lim seeds m0 k0 n = Ok f0 ->
  run o f0 history = Ok (o1, f, ns1) -> lost f -> run o2 f later = Ok (o3, f', ns2) ->
  lost f' /\ pf_ptrs (gf_pf f') = pf_ptrs (gf_pf f) /\
  exists xs x, particles_of f' = Ok (xs ++ [x]) /\ gf_pose f' = Ok (gp_pose x).
Proof.
  intros S M SM G RV dcos dsin rv_sample rv_copy rv_zero sm_process adder guess lim seeds m0 k0 n f0 o history o1 f ns1 o2 later o3 f' ns2 run Hn E0 E1 LF E2.
  destruct (new_weights rv_sample rv_copy rv_zero guess lim seeds m0 k0 n f0 Hn E0) as [I0 _].
  assert (I : gf_inv 0 f) by exact (gf_run_inv dcos dsin rv_sample rv_copy rv_zero sm_process adder 0 history o f0 o1 f ns1 I0 E1).
  set (J := fun g : gfilter F64 M SM G RV => lost g /\ pf_ptrs (gf_pf g) = pf_ptrs (gf_pf f)).
  assert (H : J f').
  { apply (run_keeps dcos dsin rv_sample rv_copy rv_zero sm_process adder J 0 later) with (o := o2) (f := f) (o' := o3) (ns := ns2); [| |exact I|split; [exact LF|reflexivity]|exact E2].
    - intros g d g' Ig ((xs & Ox & NE & NX) & Hp) Eg. apply objects_refs in Ox. destruct (update_weights dcos dsin 0 g d g' xs Ig Ox Eg) as (_ & P & R).
      split; [|congruence]. eexists. split; [apply objects_refs; exact R|]. split; [destruct xs; [easy|discriminate]|]. apply Forall_map. eapply Forall_impl; [|exact NX]. now intros.
    - intros g s samples g' Ig ((xs & Ox & NE & NX) & Hp) Eg. apply objects_refs in Ox.
      set (Q := fun x y : gparticle F64 G RV => disnan (gp_weight x) = true -> disnan (gp_weight y) = true).
      assert (KQ : forall ys, Forall2 Q xs ys -> Exists (fun w : F64 => disnan w = true) (map gp_weight ys)).
      { intros ys F. inversion F; subst; [easy|]. inversion NX; subst. left. auto. }
      assert (SN : forall ys, Forall2 Q xs ys -> Forall (fun w : F64 => disnan w = true) (scaled (map gp_weight ys)) ) by (intros ys F; apply scaled_nan; auto).
      destruct (observe_lost rv_sample rv_copy rv_zero sm_process adder 0 g s samples g' xs Q Ig Ox) with (2 := SN) (3 := Eg) as (Lg & P); [|split; [exact Lg|congruence]].
      intros maps k x maps' k' y Eo Nx. apply observe_weight in Eo as [[_ ->]|(_ & k1 & p & m & prob & dd & k2 & _ & ->)]; [exact Nx|]. now apply F_nan_mul_r. }
  destruct H as (LF' & P). split; [exact LF'|]. split; [exact P|]. destruct LF' as (xs & Ox & NE & NX). destruct (exists_last NE) as (ys & x & ->). exists ys, x. split; [exact Ox|].
  assert (Ox' := Ox). apply objects_refs in Ox'. destruct (heaviest_ptr_ok gp_weight (gf_pf f') (ys ++ [x]) Ox' NE) as (i & p & v & Ep & Hh & _ & Nv & Np).
  unfold gf_pose. rewrite Ep. cbn [bind]. unfold deref. rewrite Np. cbn [bind]. do 2 f_equal.
  assert (Hi : i = length ys).
  { clear - Hh NX. apply (Forall_map gp_weight (fun w : F64 => disnan w = true)) in NX. assert (L : length (map gp_weight (ys ++ [x])) = Datatypes.S (length ys)) by (rewrite map_length, app_length; cbn; lia).
    destruct (map gp_weight (ys ++ [x])) as [|w ws]; [discriminate|]. inversion NX; subst. cbn [heaviest] in Hh. rewrite heaviest_last in Hh by assumption. cbn [length] in L. destruct ws; injection Hh as <-; cbn in *; lia. }
  subst i. rewrite nth_error_app2, Nat.sub_diag in Nv by lia. cbn in Nv. now injection Nv.
Qed.
Print Assumptions C85_lost_weights_never_return_refuted.

(** One scan is enough: the matcher's answers to it are not numbers (it has no usable point: C84) and some particle asks. *)
Theorem C85_one_unknown_answer_loses_all_refuted :
  forall (S M SM G RV : Type) (dcos dsin : F64 -> F64) (rv_sample : RV -> G -> pose F64 * RV * G) (rv_copy : RV -> RV) (rv_zero : RV)
    (sm_process : SM -> S -> pose F64 -> M -> outcome (F64 * pose F64 * SM)) (adder : M -> pose F64 -> S -> F64 -> F64 -> outcome M)
    guess lim seeds m0 k0 n f0 o history o1 f ns1 o2 s o3 f' ns2 xs,
  let run := gf_run dcos dsin rv_sample rv_copy rv_zero sm_process adder in
  (0 < n)%nat -> gf_new rv_sample rv_copy rv_zero guess lim seeds m0 k0 n = Ok f0 ->
  run o f0 history = Ok (o1, f, ns1) -> particles_of f = Ok xs ->
  (exists x, In x xs /\ gp_skips (gp_update_robot_pose dcos dsin (ts_delta s) x) = false) ->
  (forall k p m prob d k', sm_process k (fst (ts_scan s)) p m = Ok (prob, d, k') -> disnan prob = true) ->
  run o2 f [EScan s] = Ok (o3, f', ns2) -> lost f'.
Proof.
  intros S M SM G RV dcos dsin rv_sample rv_copy rv_zero sm_process adder guess lim seeds m0 k0 n f0 o history o1 f ns1 o2 s o3 f' ns2 xs run Hn E0 E1 Ox NS HN E2.
  destruct (new_weights rv_sample rv_copy rv_zero guess lim seeds m0 k0 n f0 Hn E0) as [I0 _].
  assert (I : gf_inv 0 f) by exact (gf_run_inv dcos dsin rv_sample rv_copy rv_zero sm_process adder 0 history o f0 o1 f ns1 I0 E1).
  apply scan_parts in E2 as (f1 & EU & EO).
  apply objects_refs in Ox. destruct (update_weights dcos dsin 0 f (ts_delta s) f1 xs I Ox EU) as (I1 & _ & R1).
  set (xs1 := map _ xs) in R1.
  set (Q := fun x y : gparticle F64 G RV => gp_skips x = false -> disnan (gp_weight y) = true).
  destruct (observe_lost rv_sample rv_copy rv_zero sm_process adder 0 f1 (mkTS (ts_delta s) (fst (ts_scan s)) (ts_quality s)) (snd (ts_scan s)) f' xs1 Q I1 R1) with (3 := EO) as (Lg & _); [| |exact Lg].
  - intros maps k x maps' k' y Eo Sx. apply observe_weight in Eo as [[Sx' _]|(_ & k1 & p & m & prob & dd & k2 & Em & ->)]; [congruence|].
    apply F_nan_mul_l. exact (HN _ _ _ _ _ _ Em).
  - intros ys F. apply scaled_nan. destruct NS as (x & Ix & NS). apply (in_map (gp_update_robot_pose dcos dsin (ts_delta s))) in Ix. fold xs1 in Ix. clear - F Ix NS.
    induction F as [|a b la lb K F IH]; [destruct Ix|]. destruct Ix as [->|Ix]; cbn [map]; [left; now apply K|right; now apply IH].
Qed.
Print Assumptions C85_one_unknown_answer_loses_all_refuted.

(** Nor does it need a NaN: if every particle asks and all the answers are 0, the weights are divided by their sum, 0. *)
Theorem C85_all_zero_answers_lose_all_refuted :
  forall (S M SM G RV : Type) (dcos dsin : F64 -> F64) (rv_sample : RV -> G -> pose F64 * RV * G) (rv_copy : RV -> RV) (rv_zero : RV)
    (sm_process : SM -> S -> pose F64 -> M -> outcome (F64 * pose F64 * SM)) (adder : M -> pose F64 -> S -> F64 -> F64 -> outcome M)
    guess lim seeds m0 k0 n f0 o history o1 f ns1 o2 s o3 f' ns2 xs,
  let run := gf_run dcos dsin rv_sample rv_copy rv_zero sm_process adder in
  (0 < n)%nat -> gf_new rv_sample rv_copy rv_zero guess lim seeds m0 k0 n = Ok f0 ->
  run o f0 history = Ok (o1, f, ns1) -> particles_of f = Ok xs ->
  (forall x, In x xs -> gp_skips (gp_update_robot_pose dcos dsin (ts_delta s) x) = false) ->
  (forall k p m prob d k', sm_process k (fst (ts_scan s)) p m = Ok (prob, d, k') -> deq prob (dofZ 0) = true) ->
  run o2 f [EScan s] = Ok (o3, f', ns2) -> lost f'.
Proof.
  intros S M SM G RV dcos dsin rv_sample rv_copy rv_zero sm_process adder guess lim seeds m0 k0 n f0 o history o1 f ns1 o2 s o3 f' ns2 xs run Hn E0 E1 Ox NS HN E2.
  destruct (new_weights rv_sample rv_copy rv_zero guess lim seeds m0 k0 n f0 Hn E0) as [I0 _].
  assert (I : gf_inv 0 f) by exact (gf_run_inv dcos dsin rv_sample rv_copy rv_zero sm_process adder 0 history o f0 o1 f ns1 I0 E1).
  apply scan_parts in E2 as (f1 & EU & EO).
  apply objects_refs in Ox. destruct (update_weights dcos dsin 0 f (ts_delta s) f1 xs I Ox EU) as (I1 & _ & R1).
  set (xs1 := map _ xs) in R1.
  set (Q := fun x y : gparticle F64 G RV => gp_skips x = false -> is_zero (gp_weight y) \/ disnan (gp_weight y) = true).
  destruct (observe_lost rv_sample rv_copy rv_zero sm_process adder 0 f1 (mkTS (ts_delta s) (fst (ts_scan s)) (ts_quality s)) (snd (ts_scan s)) f' xs1 Q I1 R1) with (3 := EO) as (Lg & _); [| |exact Lg].
  - intros maps k x maps' k' y Eo Sx. apply observe_weight in Eo as [[Sx' _]|(_ & k1 & p & m & prob & dd & k2 & Em & ->)]; [congruence|].
    apply zero_times. apply eq_zero_is_zero. exact (HN _ _ _ _ _ _ Em).
  - intros ys F. assert (NS1 : forall x, In x xs1 -> gp_skips x = false) by (intros x Hx; apply in_map_iff in Hx as (y & <- & Hy); now apply NS).
    assert (A : Forall (fun y => is_zero (gp_weight y) \/ disnan (gp_weight y) = true) ys).
    { clear - F NS1. induction F as [|a b la lb K F IH]; constructor; [apply K, NS1; now left|]. apply IH. intros x Hx. apply NS1. now right. }
    destruct (Exists_dec (fun w : F64 => disnan w = true) (map gp_weight ys)) as [X|X]; [intros w; destruct (disnan w); [now left|right; discriminate]|now apply scaled_nan|].
    apply scaled_zero. apply Forall_Exists_neg in X. apply Forall_map. rewrite Forall_map in X. rewrite Forall_forall in *. intros y Hy. destruct (A y Hy) as [Z|Z]; [exact Z|]. now elim (X y Hy).
Qed.
Print Assumptions C85_all_zero_answers_lose_all_refuted.

(** and 0 is what the estimator of the GMapping filter answers for a point with no cell at least [fullness_th] occupied around,
    e.g. on a map of free cells *)
Theorem C85_unmatched_point_scores_zero :
  forall (D : Type) (ops : DOps D) (dexp : D -> D) (fullness_th : D) (window : Z) (m : gmap D) (sp : coord) (a : aoo D),
  (forall dx dy, (Z.abs dx <= window)%Z -> (Z.abs dy <= window)%Z -> dlt (c_prob (g_cell (gm_at m (coord_add sp (dx, dy))))) fullness_th = true) ->
  oope_window dexp fullness_th window m sp a = dofZ 0.
Proof.
  intros D ops dexp th window m sp a H. unfold oope_window.
  assert (G : forall l, (forall d, In d l -> In d (window_offsets window)) -> fold_left (oope_step dexp th m sp a) l (dofZ 0) = dofZ 0).
  { induction l as [|d l IH]; intros HI; cbn [fold_left]; [reflexivity|]. replace (oope_step dexp th m sp a (dofZ 0) d) with (dofZ 0 : D); [apply IH; intros; apply HI; now right|].
    unfold oope_step. assert (I := HI d (or_introl eq_refl)). unfold window_offsets in I. apply in_flat_map in I as (dx & Ix & I). apply in_map_iff in I as (dy & <- & Iy).
    unfold zseq in Ix, Iy. apply in_map_iff in Ix as (i & <- & Ix). apply in_map_iff in Iy as (j & <- & Iy). apply in_seq in Ix, Iy. now rewrite H by lia. }
  now apply G.
Qed.
Print Assumptions C85_unmatched_point_scores_zero.

(** What holds: if every answer of the matcher is positive, the weights are positive and add up to 1 after every history.
    Exact arithmetic. *)
Theorem C85_weights_stay_normalised_partial :
  forall (S M SM G RV : Type) (dcos dsin : R -> R) (rv_sample : RV -> G -> pose R * RV * G) (rv_copy : RV -> RV) (rv_zero : RV)
    (sm_process : SM -> S -> pose R -> M -> outcome (R * pose R * SM)) (adder : M -> pose R -> S -> R -> R -> outcome M)
    guess lim seeds m0 k0 n f0 o history o1 f ns1,
  (forall k s p m prob d k', sm_process k s p m = Ok (prob, d, k') -> (0 < prob)%R) ->
  (0 < n)%nat -> gf_new rv_sample rv_copy rv_zero guess lim seeds m0 k0 n = Ok f0 ->
  gf_run dcos dsin rv_sample rv_copy rv_zero sm_process adder o f0 history = Ok (o1, f, ns1) ->
  exists xs, particles_of f = Ok xs /\ length xs = n /\ Forall (fun x => 0 < gp_weight x)%R xs /\ Rsum (map gp_weight xs) = 1%R.
Proof.
  intros S M SM G RV dcos dsin rv_sample rv_copy rv_zero sm_process adder guess lim seeds m0 k0 n f0 o history o1 f ns1 HP Hn E0 E1.
  destruct (new_weights rv_sample rv_copy rv_zero guess lim seeds m0 k0 n f0 Hn E0) as [I0 (xs0 & R0 & W0)].
  set (pos := fun ws : list R => Forall (fun w => 0 < w)%R ws).
  set (J := fun g : gfilter R M SM G RV => exists xs, refs (pf_heap (gf_pf g)) (pf_ptrs (gf_pf g)) xs /\ length xs = n /\ pos (map gp_weight xs) /\ Rsum (map gp_weight xs) = 1%R).
  assert (SP : forall ws, ws <> [] -> pos ws -> (0 < Rsum ws)%R).
  { intros ws NE P. destruct P as [|w ws Hw P]; [easy|]. assert (0 <= Rsum ws)%R by (clear - P; induction P; unfold Rsum in *; cbn; lra). unfold Rsum in *. cbn. lra. }
  assert (SC : forall ws, ws <> [] -> pos ws -> pos (scaled ws) /\ Rsum (scaled ws) = 1%R).
  { intros ws NE P. assert (X := SP ws NE P). unfold scaled. rewrite total_weight_R. cbn [dofZ ROps]. rewrite Rplus_0_l. split.
    - apply Forall_map. eapply Forall_impl; [|exact P]. intros w Hw. cbn [ddiv ROps]. apply Rdiv_lt_0_compat; assumption.
    - assert (Y : forall t (l : list R), (t <> 0)%R -> Rsum (map (fun w => ddiv w t) l) = (Rsum l / t)%R).
      { intros t l Ht. induction l as [|w l IH]; unfold Rsum in *; cbn [map fold_right]; [field; exact Ht|]. rewrite IH. cbn [ddiv ROps]. field. exact Ht. }
      rewrite Y by lra. field. lra. }
  assert (H : J f).
  { apply (run_keeps dcos dsin rv_sample rv_copy rv_zero sm_process adder J 0 history) with (o := o) (f := f0) (o' := o1) (ns := ns1); [| |exact I0| |exact E1].
    - intros g d g' Ig (xs & Ox & L & P & T) Eg. destruct (update_weights dcos dsin 0 g d g' xs Ig Ox Eg) as (_ & _ & R). eexists. split; [exact R|]. rewrite map_length, map_map. split; [exact L|].
      cbn [gp_weight gp_update_robot_pose gp_move]. auto.
    - intros g s samples g' Ig (xs & Ox & L & P & T) Eg.
      destruct (observe_weights rv_sample rv_copy rv_zero sm_process adder 0 g s samples g' xs (fun x y => (0 < gp_weight x -> 0 < gp_weight y)%R) Ig Ox) with (2 := Eg) as (ys & zs & F & RZ & LZ & W).
      + intros maps k x maps' k' y Eo Px. apply observe_weight in Eo as [[_ ->]|(_ & k1 & p & m & prob & dd & k2 & Em & ->)]; [exact Px|]. apply HP in Em. cbn [dmul ROps]. now apply Rmult_lt_0_compat.
      + exists zs. split; [exact RZ|]. split; [congruence|].
        assert (PY : pos (map gp_weight ys)). { clear - F P. unfold pos in *. rewrite Forall_map in *. induction F; constructor; inversion P; subst; auto. }
        assert (LY : length ys = n) by (rewrite <- L; clear - F; induction F; cbn; auto).
        assert (NY : map gp_weight ys <> []) by (destruct ys; [cbn in LY; lia|discriminate]).
        destruct (SC _ NY PY) as [P1 T1]. destruct W as [[-> _]|(_ & ws & LW & FW & ->)]; [auto|].
        apply SC; [destruct ws; [cbn in LW; lia|discriminate]|]. unfold pos in *. rewrite Forall_forall in *. auto.
    - exists xs0. split; [exact R0|]. assert (L : length xs0 = n) by (rewrite <- (map_length gp_weight), W0; apply repeat_length). split; [exact L|]. rewrite W0. cbn [ddiv dofZ ROps]. rewrite <- INR_IZR_INZ.
      assert (Pn : (0 < INR n)%R) by (apply lt_0_INR; exact Hn). split.
      + apply Forall_forall. intros w Hw. apply repeat_spec in Hw. subst w. apply Rdiv_lt_0_compat; lra.
      + rewrite Rsum_repeat. field. lra. }
  destruct H as (xs & R & L & P & T). exists xs. split; [apply objects_refs; exact R|]. split; [exact L|]. split; [|exact T]. unfold pos in P. now rewrite Forall_map in P.
Qed.
Print Assumptions C85_weights_stay_normalised_partial.

(** two particles; the matcher knows the second scan at no pose, and answers 1/2 to all others *)
Definition lost_nan : F64 := ddiv (dofZ 0) (dofZ 0).
Definition lost_sm (k : nat) (s : bool) (p : pose F64) (m : unit) : outcome (F64 * pose F64 * nat) := Ok (if s then lost_nan else dlit 1 2, delta_zero, Datatypes.S k).
Definition lost_rv (_ : unit) (_ : unit) : pose F64 * unit * unit := (delta_zero, tt, tt).
Definition lost_new := gf_new lost_rv (fun x => x) tt tt tt (fun _ => tt) tt 0%nat 2.
Definition lost_run := gf_run (S := bool) (M := unit) (SM := nat) (G := unit) (RV := unit) (fun _ => dofZ 1) (fun _ => dofZ 0) lost_rv (fun x => x) tt lost_sm (fun m _ _ _ _ => Ok m).
Definition lost_scan (b : bool) : wevent F64 (bool * (nat -> F64)) := EScan (mkTS (mkPose (dofZ 1) (dofZ 0) (dofZ 0)) (b, fun _ => dlit 1 2) (dofZ 1)).
Example C85_case :
  match lost_new with
  | Ok f0 =>
      match lost_run wo_new f0 [lost_scan false; lost_scan true], lost_run wo_new f0 [lost_scan false; lost_scan true; lost_scan false; lost_scan false] with
      | Ok (_, f, _), Ok (_, f', _) =>
          match particles_of f, particles_of f' with
          | Ok xs, Ok ys => forallb (fun x => disnan (gp_weight x)) xs && forallb (fun x => disnan (gp_weight x)) ys && Nat.eqb (gf_sm f') 8
              && forallb (fun x => negb (gp_skips (gp_update_robot_pose (fun _ => dofZ 1) (fun _ => dofZ 0) (mkPose (dofZ 1) (dofZ 0) (dofZ 0)) x))) xs
          | _, _ => false end
      | _, _ => false end
  | _ => false end = true.
Proof. vm_compute. reflexivity. Qed.
