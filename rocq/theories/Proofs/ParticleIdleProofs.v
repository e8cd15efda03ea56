(** GMapping particles that never reach their matching limit; masters; copies. *)
From Coq Require Import Reals ZArith List Lia Lra Bool.
From Verif.Base Require Import Outcome Num OrdLaws.
From Verif.Model Require Import MathUtils Geometry Sensor Histogram World ParticleFilter Gmapping.
From Verif.Spec Require Import WorldSpec ParticleSpec TravelSpec ParticleScanSpec.
From Verif.Proofs Require Import HistProofs ParticleProofs WorldProofs ResampleProofs ParticleScanProofs.
Import ListNotations.
Local Open Scope R_scope.

Section Idle.
  Context {S M SM G RV : Type} (rv_sample : RV -> G -> pose R * RV * G) (rv_copy : RV -> RV) (rv_zero : RV)
    (sm : SM -> S -> pose R -> M -> outcome (R * pose R * SM)) (adder : M -> pose R -> S -> R -> R -> outcome M).
  Local Notation gp := (gparticle R G RV).
  Local Notation run := (gf_run cos sin rv_sample rv_copy rv_zero sm adder).
  Variables (lx lth : R).
  (** a particle that was never matched, its limit above [lx] and [lth], and the way [t] since then *)
  Definition idle (w : R) (t : pose R) (x : gp) : Prop :=
    gp_pose x = gp_raw x /\ gp_since x = t /\ gp_weight x = w /\ lx <= px (gp_next x) * px (gp_next x) + py (gp_next x) * py (gp_next x) /\ lth <= pth (gp_next x).
  Lemma idle_update w t d x : idle w t x -> idle w (pose_add t (delta_abs d)) (gp_update_robot_pose cos sin d x).
  Proof.
    intros (P & Si & W & L1 & L2). unfold gp_update_robot_pose. cbv zeta. rewrite P. unfold pose_sub. cbn [pth dsub ROps]. replace (pth (gp_raw x) - pth (gp_raw x)) with 0 by ring. rewrite cos_0, sin_0.
    unfold idle. cbn [gp_pose gp_raw gp_since gp_weight gp_next gp_move px py pth]. rewrite ?P, Si. split; [|split; [|auto]].
    - unfold pose_add. cbn [px py pth dadd dmul dsub ROps]. f_equal; ring.
    - unfold pose_add, delta_abs. cbn [px py pth dadd dmul dsub dabs ROps]. f_equal; f_equal; f_equal; ring.
  Qed.
  Lemma idle_skips w t x : px t * px t + py t * py t < lx -> Rabs (pth t) < lth -> idle w t x -> gp_skips x = true.
  Proof. intros A B (P & Si & W & L1 & L2). apply skips_short. unfold short_way, squared_length. rewrite Si. cbn [dlt dadd dmul dabs ROps]. rewrite !R_lt_true. lra. Qed.
  Lemma upd_id {A} (l : list A) i x : nth_error l i = Some x -> upd l i (fun _ => x) = l.
  Proof.
    intros N. unfold upd. rewrite N. revert i N. induction l as [|y l IH]; intros [|i] N; try discriminate.
    - injection N as ->. reflexivity.
    - cbn [firstn skipn app]. f_equal. now apply IH.
  Qed.
  Lemma observe_each_skips s ptrs : forall maps k h xs, refs h ptrs xs -> Forall (fun x => gp_skips x = true) xs ->
    gf_observe_each rv_sample sm adder maps k h ptrs s = Ok (maps, k, h).
  Proof.
    induction ptrs as [|p ptrs IH]; intros maps k h xs F FS; cbn [gf_observe_each]; [reflexivity|].
    inversion F as [|? x ? l N F']; subst. inversion FS as [|? ? Sx FS']; subst. unfold deref. rewrite N. cbn [bind]. unfold gp_observe. rewrite Sx. cbn [bind].
    rewrite upd_id by exact N. now apply (IH _ _ _ l).
  Qed.
  Lemma Rsum_const l c : Forall (fun w => w = c) l -> Rsum l = INR (length l) * c.
  Proof. induction 1 as [|w l -> H IH]; cbn [Rsum fold_right]; [cbn; lra|]. fold (Rsum l). rewrite IH. cbn [length]. rewrite S_INR. lra. Qed.
  Lemma even_weights ws n : (0 < n)%nat -> length ws = n -> Forall (fun w => w = 1 / INR n) ws -> resampling_is_required ws = false.
  Proof.
    intros Hn L F. assert (P : 0 < INR n) by (apply lt_0_INR; exact Hn). unfold resampling_is_required. apply R_lt_false. cbn [dmul ddiv dofZ ROps]. rewrite sum_squares_R. cbn [dofZ ROps].
    rewrite (Rsum_const (map (fun w => w * w) ws) (1 / INR n * (1 / INR n))).
    - rewrite map_length, L, <- INR_IZR_INZ. replace (0 + INR n * (1 / INR n * (1 / INR n))) with (/ INR n) by (field; lra). unfold Rdiv. rewrite Rmult_1_l, Rinv_inv. lra.
    - apply Forall_map. eapply Forall_impl; [|exact F]. intros a ->. reflexivity.
  Qed.
  (** nothing but odometry happens to a filter of idle particles *)
  Lemma idle_run n h : (0 < n)%nat -> forall o (f : gfilter R M SM G RV) t xs, gf_inv 0 f -> refs (pf_heap (gf_pf f)) (pf_ptrs (gf_pf f)) xs -> length xs = n -> Forall (idle (1 / INR n) t) xs ->
    0 <= px t -> 0 <= py t -> 0 <= pth t ->
    (px t + total (@px R) (deltas h)) * (px t + total (@px R) (deltas h)) + (py t + total (@py R) (deltas h)) * (py t + total (@py R) (deltas h)) < lx -> pth t + total (@pth R) (deltas h) < lth ->
    exists o' f' ns, run o f h = Ok (o', f', ns) /\ gf_maps f' = gf_maps f /\ gf_sm f' = gf_sm f.
  Proof.
    intros Hn. induction h as [|e h IH]; intros o f t xs I HR L F TX TY TT B1 B2.
    - exists o, f, []. split; [reflexivity|auto].
    - destruct e as [id|id|id|s].
      1: exact (IH (subscribe_pose o id) f t xs I HR L F TX TY TT B1 B2).
      1: exact (IH (subscribe_map o id) f t xs I HR L F TX TY TT B1 B2).
      1: exact (IH (destroy_observer o id) f t xs I HR L F TX TY TT B1 B2).
      set (d := ts_delta s) in *.
      assert (A1 := Rabs_pos (px d)). assert (A2 := Rabs_pos (py d)). assert (A3 := Rabs_pos (pth d)).
      cbn [deltas flat_map app total fold_right] in B1, B2. fold (deltas h) in B1, B2. fold d in B1, B2.
      fold (total (@px R) (deltas h)) in B1. fold (total (@py R) (deltas h)) in B1. fold (total (@pth R) (deltas h)) in B2.
      assert (T1 := total_pos (@px R) (deltas h)). assert (T2 := total_pos (@py R) (deltas h)). assert (T3 := total_pos (@pth R) (deltas h)).
      assert (I' := I). destruct I' as (xs0 & R0 & ND & NE & _ & HM & HL). assert (X : xs0 = xs) by (apply objects_refs in R0; apply objects_refs in HR; congruence). subst xs0.
      destruct (gf_update_inv cos sin 0 f d I) as (f1 & E1 & I1).
      assert (E1' := E1). unfold gf_update in E1'. destruct (gf_each_spec (gp_update_robot_pose cos sin d) _ _ _ HR ND) as (h1 & Eh & R1 & _). rewrite Eh in E1'. cbn [bind] in E1'. injection E1' as E1'.
      set (xs1 := map (gp_update_robot_pose cos sin d) xs) in *. set (t1 := pose_add t (delta_abs d)).
      assert (F1 : Forall (idle (1 / INR n) t1) xs1) by (apply Forall_map; eapply Forall_impl; [|exact F]; intros a Ha; now apply idle_update).
      assert (Q1 : px t1 = px t + Rabs (px d) /\ py t1 = py t + Rabs (py d) /\ pth t1 = pth t + Rabs (pth d)) by (split; [|split]; reflexivity). destruct Q1 as (Q1 & Q2 & Q3).
      assert (FS : Forall (fun x => gp_skips x = true) xs1).
      { eapply Forall_impl; [|exact F1]. intros a Ha. apply (idle_skips (1 / INR n) t1 a); [nra|rewrite Q3, Rabs_right; lra|exact Ha]. }
      set (s1 := mkTS (ts_delta s) (fst (ts_scan s)) (ts_quality s)).
      assert (L1 : length xs1 = n) by (unfold xs1; now rewrite map_length).
      assert (W1 : Forall (fun w => w = 1 / INR n) (map gp_weight xs1)) by (apply Forall_map; eapply Forall_impl; [|exact F1]; intros a Ha; apply Ha).
      assert (P : 0 < INR n) by (apply lt_0_INR; exact Hn).
      assert (TW : total_weight (map gp_weight xs1) (dofZ 0) = 1).
      { rewrite total_weight_R, (Rsum_const _ (1 / INR n)) by exact W1. rewrite map_length, L1. cbn [dofZ ROps]. field. lra. }
      destruct (normalize_spec gp_weight gp_set_weight (mkPF h1 (pf_ptrs (gf_pf f))) xs1 R1 ND) as (p & En & Ep & _ & Rn). rewrite TW in Rn. set (xs2 := map _ xs1) in Rn.
      assert (F2 : Forall (idle (1 / INR n) t1) xs2).
      { apply Forall_map. eapply Forall_impl; [|exact F1]. intros a (H1 & H2 & H3 & H4). unfold idle. cbn [gp_set_weight gp_pose gp_raw gp_since gp_weight gp_next]. split; [exact H1|]. split; [exact H2|]. split; [|exact H4]. rewrite H3. cbn [ddiv ROps]. lra. }
      assert (O : exists g, gf_observe rv_sample rv_copy rv_zero sm adder f1 s1 (snd (ts_scan s)) = Ok (mkGF p g (gf_maps f) (gf_sm f))).
      { rewrite <- E1'. unfold gf_observe. cbn [gf_maps gf_sm gf_pf pf_heap pf_ptrs gf_trav]. rewrite (observe_each_skips _ _ _ _ _ _ R1 FS). cbn [bind]. rewrite En. cbn [bind].
        unfold gf_try_resample. cbn [gf_trav gf_pf gf_maps gf_sm]. destruct (_ && _)%bool; [eauto|].
        unfold pf_try_resample. rewrite (proj2 (objects_refs _ _ _) Rn). cbn [bind]. rewrite (even_weights _ n); [cbn [negb bind]; eauto|exact Hn| |].
        - unfold xs2. now rewrite !map_length.
        - apply Forall_map. eapply Forall_impl; [|exact F2]. intros a Ha; apply Ha. }
      destruct O as (g & E2). assert (I2 : gf_inv 0 (mkGF p g (gf_maps f) (gf_sm f))) by (eapply gf_observe_inv; [exact I1|exact E2]).
      destruct (IH o (mkGF p g (gf_maps f) (gf_sm f)) t1 xs2 I2) as (o' & f' & ns & E & H); [exact Rn|unfold xs2; now rewrite map_length|exact F2|lra..| |lra|].
      { rewrite Q1, Q2. rewrite !Rplus_assoc. exact B1. }
      assert (NE2 : xs2 <> []) by (unfold xs2, xs1; destruct xs; [easy|discriminate]).
      destruct (heaviest_ptr_ok gp_weight p xs2 Rn NE2) as (i & q & v & Eq & _ & _ & Nv & Nq).
      assert (Mv : gp_map v = 0%nat). { destruct I2 as (zs & RR & _ & _ & _ & HM2 & _). cbn [gf_pf] in RR. assert (X : zs = xs2) by (apply objects_refs in RR; assert (RN := Rn); apply objects_refs in RN; congruence). subst zs. rewrite Forall_forall in HM2. apply HM2. eapply nth_error_In; eauto. }
      assert (Mm : exists m, nth_error (gf_maps f) 0 = Some m) by (destruct (gf_maps f); [cbn in HL; lia|eexists; reflexivity]). destruct Mm as [m Mm].
      exists o', f'. unfold gf_run. cbn [world_run]. unfold handle_sensor_data. fold d. rewrite E1. cbn [bind]. fold d in s1. fold s1. rewrite E2. cbn [bind].
      unfold gf_pose at 1, gf_map at 1. cbn [gf_pf gf_maps]. rewrite Eq. cbn [bind]. unfold deref. rewrite Nq. cbn [bind]. rewrite Mv, Mm. cbn [bind].
      unfold gf_run in E. rewrite E. cbn [bind]. eexists. split; [reflexivity|]. exact H.
  Qed.
  Lemma new_idle guess lim seeds (m0 : M) (sm0 : SM) n : (0 < n)%nat ->
    (forall i, let nx := fst (fst (rv_sample (rv_copy lim) (seeds i))) in lx <= px nx * px nx + py nx * py nx /\ lth <= pth nx) ->
    exists (f : gfilter R M SM G RV) xs, gf_new rv_sample rv_copy rv_zero guess lim seeds m0 sm0 n = Ok f /\ gf_inv 0 f /\ refs (pf_heap (gf_pf f)) (pf_ptrs (gf_pf f)) xs /\ length xs = n /\
      Forall (idle (1 / INR n) (mkPose 0 0 0)) xs /\ gf_maps f = [m0] /\ gf_sm f = sm0.
  Proof.
    intros Hn HL. destruct (gf_new_inv rv_sample rv_copy rv_zero guess lim seeds m0 sm0 n Hn) as (f & E & I & L). exists f.
    assert (E' := E). revert E'. unfold gf_new. set (cr := fun i => gp_create rv_sample rv_copy guess lim 0 (seeds i)). cbv zeta.
    unfold pf_new. cbn [pf_heap pf_ptrs]. set (w := ddiv _ _).
    assert (W : w = 1 / INR n) by (unfold w; cbn [ddiv dofZ ROps]; rewrite <- INR_IZR_INZ; reflexivity). clearbody w.
    set (xs := map (fun i => gp_set_weight w (cr i)) (seq 0 n)).
    assert (R : refs (pf_create gp_set_weight cr n 0 w) (seq 0 n) xs).
    { unfold refs, xs. clear - cr. assert (GG : forall l, Forall (fun i => (i < n)%nat) l -> Forall2 (fun p x => nth_error (pf_create gp_set_weight cr n 0 w) p = Some x) l (map (fun i => gp_set_weight w (cr i)) l)).
      { intros l H. induction H as [|i l Hi H IH]; cbn [map]; constructor; [|exact IH]. rewrite pf_create_nth by exact Hi. reflexivity. }
      apply GG. apply Forall_forall. intros i Hi. apply in_seq in Hi. lia. }
    assert (ND := seq_NoDup n 0).
    destruct (gf_each_spec (gp_sample (G := G)) _ _ _ R ND) as (h & Eg & R' & _). rewrite Eg. cbn [bind].
    set (ys := map gp_sample xs) in R'.
    assert (LY : length ys = n) by (unfold ys, xs; now rewrite !map_length, seq_length).
    assert (NE : ys <> []) by (intros H; rewrite H in LY; cbn in LY; lia).
    destruct (heaviest_ptr_ok gp_weight (mkPF h (seq 0 n)) ys R' NE) as (i & p & x & Ep & _ & Np & Nx & _). rewrite Ep. cbn [bind]. intros E'. injection E' as <-.
    exists (upd ys i (gp_mark_master rv_zero)). cbn [gf_pf gf_maps pf_heap pf_ptrs gf_sm]. split; [reflexivity|]. split; [exact I|]. split; [now apply refs_upd_at|]. split; [now rewrite upd_length|].
    split; [|auto]. apply upd_Forall.
    - unfold ys, xs. rewrite map_map. apply Forall_map. apply Forall_forall. intros j _. specialize (HL j). cbv zeta in HL. unfold cr, gp_create, gp_reset_sm_delta. cbn [gp_lim gp_engine].
      destruct (rv_sample _ _) as [[nx lm] g]. cbn [fst] in HL. unfold idle. cbn. auto.
    - intros y Hy. exact Hy.
  Qed.
End Idle.

(** ** a property of the object behind one pointer, through a whole run *)
Section Held.
  Context {S M SM G RV : Type} (dcos dsin : R -> R) (rv_sample : RV -> G -> pose R * RV * G) (rv_copy : RV -> RV) (rv_zero : RV)
    (sm : SM -> S -> pose R -> M -> outcome (R * pose R * SM)) (adder : M -> pose R -> S -> R -> R -> outcome M).
  Local Notation gp := (gparticle R G RV).
  Variable P : gp -> Prop.
  Definition held (h : list gp) (p : nat) : Prop := exists x, nth_error h p = Some x /\ P x.
  Lemma held_upd h p q f : (forall x, P x -> P (f x)) -> held h p -> held (upd h q f) p.
  Proof.
    intros HF (x & N & Hx). unfold upd. destruct (nth_error h q) as [y|] eqn:E; [|exists x; auto].
    fold (@upd gp h q f) in *. assert (B : (q < length h)%nat) by (apply nth_error_Some; congruence).
    replace (firstn q h ++ f y :: skipn (Datatypes.S q) h) with (upd h q f) by (unfold upd; rewrite E; reflexivity).
    unfold held. rewrite upd_nth by exact B. destruct (Nat.eqb_spec p q) as [->|].
    - rewrite E. rewrite N in E. injection E as <-. cbn. eauto.
    - eauto.
  Qed.
  Lemma held_put h p q y : (nth_error h q <> None -> forall x, nth_error h q = Some x -> P x -> P y) -> held h p -> held (upd h q (fun _ => y)) p.
  Proof.
    intros HF (x & N & Hx). destruct (nth_error h q) as [z|] eqn:E; [|unfold upd; rewrite E; exists x; auto].
    assert (B : (q < length h)%nat) by (apply nth_error_Some; congruence). unfold held. rewrite upd_nth by exact B. destruct (Nat.eqb_spec p q) as [->|]; [|eauto].
    rewrite E. cbn. rewrite N in E. injection E as <-. exists y. split; [reflexivity|]. apply (HF ltac:(discriminate) x eq_refl Hx).
  Qed.
  Lemma held_each f ptrs p : (forall x, P x -> P (f x)) -> forall h h', gf_each h ptrs f = Ok h' -> held h p -> held h' p.
  Proof.
    intros HF. induction ptrs as [|q ptrs IH]; intros h h' E H; cbn [gf_each] in E; [injection E as <-; exact H|].
    apply bind_Ok_inv in E as (x & _ & E). apply (IH _ _ E). now apply held_upd.
  Qed.
  Lemma held_observe s ptrs p : (forall maps k x maps' k' y, gp_observe rv_sample sm adder maps k x s = Ok (maps', k', y) -> P x -> P y) ->
    forall maps k h maps' k' h', gf_observe_each rv_sample sm adder maps k h ptrs s = Ok (maps', k', h') -> held h p -> held h' p.
  Proof.
    intros HO. induction ptrs as [|q ptrs IH]; intros maps k h maps' k' h' E H; cbn [gf_observe_each] in E; [injection E as <- <- <-; exact H|].
    apply bind_Ok_inv in E as (x & Ex & E). apply bind_Ok_inv in E as ([[maps1 k1] y] & Ey & E). apply (IH _ _ _ _ _ _ E). apply held_put; [|exact H].
    intros _ z Nz Hz. unfold deref in Ex. rewrite Nz in Ex. injection Ex as <-. exact (HO _ _ _ _ _ _ Ey Hz).
  Qed.
  Hypothesis PW : forall w x, P x -> P (gp_set_weight w x).
  Lemma held_normalize f f' p : normalize_weights gp_weight gp_set_weight f = Ok f' -> held (pf_heap f) p -> held (pf_heap f') p.
  Proof.
    unfold normalize_weights. intros E H. apply bind_Ok_inv in E as (xs & _ & E). apply bind_Ok_inv in E as (h & E & E'). injection E' as <-. cbn [pf_heap].
    revert E H. generalize (total_weight (map gp_weight xs) (dofZ 0)). intros tot. generalize (pf_heap f). generalize (pf_ptrs f). intros ptrs. induction ptrs as [|q ptrs IH]; intros h0 E H; cbn [scale_weights] in E; [injection E as <-; exact H|].
    apply bind_Ok_inv in E as (x & _ & E). apply (IH _ E). apply held_upd; [|exact H]. intros z Hz. now apply PW.
  Qed.
  Lemma held_take old p : forall inds h seen h' ptrs, take_particles (gp_duplicate (D := R) rv_copy) h old inds seen = Ok (h', ptrs) -> held h p -> held h' p.
  Proof.
    induction inds as [|i inds IH]; intros h seen h' ptrs E H; cbn [take_particles] in E; [injection E as <- <-; exact H|].
    destruct (nth_error old i) as [q|]; [|discriminate]. destruct (existsb _ _).
    - apply bind_Ok_inv in E as (x & _ & E). apply bind_Ok_inv in E as ([h1 ps] & E & E'). injection E' as <- <-. apply (IH _ _ _ _ E).
      destruct H as (y & N & Hy). exists y. split; [|exact Hy]. rewrite nth_error_app1; [exact N|]. apply nth_error_Some. congruence.
    - apply bind_Ok_inv in E as ([h1 ps] & E & E'). injection E' as <- <-. exact (IH _ _ _ _ E H).
  Qed.
  Hypothesis PM : forall x, P x -> P (gp_mark_master rv_zero x).
  Hypothesis PU : forall d x, P x -> P (gp_update_robot_pose dcos dsin d x).
  Hypothesis PO : forall s maps k x maps' k' y, gp_observe rv_sample sm adder maps k x s = Ok (maps', k', y) -> P x -> P y.
  Lemma held_step p f s samples f' : gf_observe rv_sample rv_copy rv_zero sm adder f s samples = Ok f' -> held (pf_heap (gf_pf f)) p -> held (pf_heap (gf_pf f')) p.
  Proof.
    intros E H. unfold gf_observe in E. apply bind_Ok_inv in E as ([[maps k] h] & E1 & E). apply (held_observe s _ p (PO s)) in E1; [|exact H].
    apply bind_Ok_inv in E as (p1 & E2 & E). apply (held_normalize _ _ p) in E2; [|exact E1].
    unfold gf_try_resample in E. cbn [gf_trav gf_pf gf_maps gf_sm] in E. destruct (_ && _)%bool in E; [injection E as <-; exact E2|].
    apply bind_Ok_inv in E as ([p2 b] & E3 & E). assert (H3 : held (pf_heap p2) p).
    { unfold pf_try_resample in E3. apply bind_Ok_inv in E3 as (xs & _ & E3). destruct (negb _); [injection E3 as <- _; exact E2|].
      apply bind_Ok_inv in E3 as ([h3 q3] & E4 & E3). apply bind_Ok_inv in E3 as (f3 & E5 & E3). injection E3 as <- _. apply (held_normalize _ _ p) in E5; [exact E5|]. cbn [pf_heap].
      exact (held_take _ _ _ _ _ _ _ E4 E2). }
    destruct b; cbn [negb] in E; [|injection E as <-; exact H3]. apply bind_Ok_inv in E as (p3 & E4 & E). injection E as <-. cbn [gf_pf].
    unfold gf_ensure_master in E4. apply bind_Ok_inv in E4 as (xs & _ & E4). destruct (existsb _ _); [injection E4 as <-; exact H3|].
    apply bind_Ok_inv in E4 as (q & _ & E4). injection E4 as <-. cbn [pf_heap]. now apply held_upd.
  Qed.
  Lemma held_run p h : forall o f o' f' ns, gf_run dcos dsin rv_sample rv_copy rv_zero sm adder o f h = Ok (o', f', ns) -> held (pf_heap (gf_pf f)) p -> held (pf_heap (gf_pf f')) p.
  Proof.
    unfold gf_run. induction h as [|[id|id|id|s] h IH]; intros o f o' f' ns E H; cbn [world_run] in E.
    - injection E as <- <- <-. exact H.
    - exact (IH _ _ _ _ _ E H).
    - exact (IH _ _ _ _ _ E H).
    - exact (IH _ _ _ _ _ E H).
    - apply bind_Ok_inv in E as ([w n] & E1 & E). apply bind_Ok_inv in E as ([[o1 w1] n1] & E2 & E). injection E as <- <- <-. apply (IH _ _ _ _ _ E2).
      unfold handle_sensor_data in E1. apply bind_Ok_inv in E1 as (w2 & E3 & E1). apply bind_Ok_inv in E1 as (w3 & E4 & E1). apply bind_Ok_inv in E1 as (pp & _ & E1). apply bind_Ok_inv in E1 as (mm & _ & E1). injection E1 as <- <-.
      apply (held_step _ _ _ _ _ E4). unfold gf_update in E3. apply bind_Ok_inv in E3 as (hh & E3 & E5). injection E5 as <-. cbn [gf_pf pf_heap].
      apply (held_each _ _ _ (PU (ts_delta s)) _ _ E3 H).
  Qed.
End Held.

(** ** a property of all the objects, through a whole run *)
Section All.
  Context {S M SM G RV : Type} (dcos dsin : R -> R) (rv_sample : RV -> G -> pose R * RV * G) (rv_copy : RV -> RV) (rv_zero : RV)
    (sm : SM -> S -> pose R -> M -> outcome (R * pose R * SM)) (adder : M -> pose R -> S -> R -> R -> outcome M).
  Local Notation gp := (gparticle R G RV).
  Variable P : gp -> Prop.
  Lemma all_put (h : list gp) q y : P y -> Forall P h -> Forall P (upd h q (fun _ => y)).
  Proof. intros Hy H. apply upd_Forall; [exact H|auto]. Qed.
  Lemma all_deref h p x : deref h p = Ok x -> Forall P h -> P x.
  Proof. unfold deref. intros E H. destruct (nth_error h p) as [y|] eqn:N; [|discriminate]. injection E as <-. rewrite Forall_forall in H. apply H. eapply nth_error_In; eauto. Qed.
  Hypothesis PW : forall w x, P x -> P (gp_set_weight w x).
  Hypothesis PD : forall x, P x -> P (gp_duplicate rv_copy x).
  Hypothesis PM : forall x, P x -> P (gp_mark_master rv_zero x).
  Hypothesis PU : forall d x, P x -> P (gp_update_robot_pose dcos dsin d x).
  Hypothesis PO : forall s maps k x maps' k' y, gp_observe rv_sample sm adder maps k x s = Ok (maps', k', y) -> P x -> P y.
  Lemma all_each f ptrs : (forall x, P x -> P (f x)) -> forall h h', gf_each h ptrs f = Ok h' -> Forall P h -> Forall P h'.
  Proof.
    intros HF. induction ptrs as [|q ptrs IH]; intros h h' E H; cbn [gf_each] in E; [injection E as <-; exact H|].
    apply bind_Ok_inv in E as (x & _ & E). apply (IH _ _ E). now apply upd_Forall.
  Qed.
  Lemma all_normalize f f' : normalize_weights gp_weight gp_set_weight f = Ok f' -> Forall P (pf_heap f) -> Forall P (pf_heap f').
  Proof.
    unfold normalize_weights. intros E H. apply bind_Ok_inv in E as (xs & _ & E). apply bind_Ok_inv in E as (h & E & E'). injection E' as <-. cbn [pf_heap].
    revert E H. generalize (total_weight (map gp_weight xs) (dofZ 0)). intros tot. generalize (pf_heap f). generalize (pf_ptrs f). intros ptrs. induction ptrs as [|q ptrs IH]; intros h0 E H; cbn [scale_weights] in E; [injection E as <-; exact H|].
    apply bind_Ok_inv in E as (x & _ & E). apply (IH _ E). apply upd_Forall; [exact H|]. intros z Hz. now apply PW.
  Qed.
  Lemma all_step f s samples f' : gf_observe rv_sample rv_copy rv_zero sm adder f s samples = Ok f' -> Forall P (pf_heap (gf_pf f)) -> Forall P (pf_heap (gf_pf f')).
  Proof.
    intros E H. unfold gf_observe in E. apply bind_Ok_inv in E as ([[maps k] h] & E1 & E).
    assert (H1 : Forall P h).
    { clear E. revert E1 H. generalize (gf_maps f) (gf_sm f) (pf_heap (gf_pf f)) (pf_ptrs (gf_pf f)). intros maps0 k0 h0 ptrs. revert maps0 k0 h0. induction ptrs as [|q ptrs IH]; intros maps0 k0 h0 E H; cbn [gf_observe_each] in E; [injection E as <- <- <-; exact H|].
      apply bind_Ok_inv in E as (x & Ex & E). apply bind_Ok_inv in E as ([[maps1 k1] y] & Ey & E). apply (IH _ _ _ E). apply all_put; [|exact H]. apply (PO _ _ _ _ _ _ _ Ey). exact (all_deref _ _ _ Ex H). }
    apply bind_Ok_inv in E as (p1 & E2 & E). apply all_normalize in E2; [|exact H1].
    unfold gf_try_resample in E. cbn [gf_trav gf_pf gf_maps gf_sm] in E. destruct (_ && _)%bool in E; [injection E as <-; exact E2|].
    apply bind_Ok_inv in E as ([p2 b] & E3 & E). assert (H3 : Forall P (pf_heap p2)).
    { unfold pf_try_resample in E3. apply bind_Ok_inv in E3 as (xs & _ & E3). destruct (negb _); [injection E3 as <- _; exact E2|].
      apply bind_Ok_inv in E3 as ([h3 q3] & E4 & E3). apply bind_Ok_inv in E3 as (f3 & E5 & E3). injection E3 as <- _. apply all_normalize in E5; [exact E5|]. cbn [pf_heap].
      revert E4 E2. generalize (resample (map gp_weight xs) samples) (pf_heap p1) (@nil nat) (pf_ptrs p1) h3 q3. clear - PD. intros inds h0 seen old. revert h0 seen.
      induction inds as [|i inds IH]; intros h seen h' ptrs E H; cbn [take_particles] in E; [injection E as <- <-; exact H|].
      destruct (nth_error old i) as [q|]; [|discriminate]. destruct (existsb _ _).
      - apply bind_Ok_inv in E as (x & Ex & E). apply bind_Ok_inv in E as ([h1 ps] & E & E'). injection E' as <- <-. apply (IH _ _ _ _ E). apply Forall_app. split; [exact H|]. constructor; [|constructor]. apply PD. exact (all_deref _ _ _ Ex H).
      - apply bind_Ok_inv in E as ([h1 ps] & E & E'). injection E' as <- <-. exact (IH _ _ _ _ E H). }
    destruct b; cbn [negb] in E; [|injection E as <-; exact H3]. apply bind_Ok_inv in E as (p3 & E4 & E). injection E as <-. cbn [gf_pf].
    unfold gf_ensure_master in E4. apply bind_Ok_inv in E4 as (xs & _ & E4). destruct (existsb _ _); [injection E4 as <-; exact H3|].
    apply bind_Ok_inv in E4 as (q & _ & E4). injection E4 as <-. cbn [pf_heap]. now apply upd_Forall.
  Qed.
  Lemma all_run h : forall o f o' f' ns, gf_run dcos dsin rv_sample rv_copy rv_zero sm adder o f h = Ok (o', f', ns) -> Forall P (pf_heap (gf_pf f)) -> Forall P (pf_heap (gf_pf f')).
  Proof.
    unfold gf_run. induction h as [|[id|id|id|s] h IH]; intros o f o' f' ns E H; cbn [world_run] in E.
    - injection E as <- <- <-. exact H.
    - exact (IH _ _ _ _ _ E H).
    - exact (IH _ _ _ _ _ E H).
    - exact (IH _ _ _ _ _ E H).
    - apply bind_Ok_inv in E as ([w n] & E1 & E). apply bind_Ok_inv in E as ([[o1 w1] n1] & E2 & E). injection E as <- <- <-. apply (IH _ _ _ _ _ E2).
      unfold handle_sensor_data in E1. apply bind_Ok_inv in E1 as (w2 & E3 & E1). apply bind_Ok_inv in E1 as (w3 & E4 & E1). apply bind_Ok_inv in E1 as (pp & _ & E1). apply bind_Ok_inv in E1 as (mm & _ & E1). injection E1 as <- <-.
      apply (all_step _ _ _ _ E4). unfold gf_update in E3. apply bind_Ok_inv in E3 as (hh & E3 & E5). injection E5 as <-. cbn [gf_pf pf_heap].
      apply (all_each _ _ (PU (ts_delta s)) _ _ E3 H).
  Qed.
End All.

(** ** masters *)
Section Master.
  Context {S M SM G RV : Type} (dcos dsin : R -> R) (rv_sample : RV -> G -> pose R * RV * G) (rv_copy : RV -> RV) (rv_zero : RV)
    (sm : SM -> S -> pose R -> M -> outcome (R * pose R * SM)) (adder : M -> pose R -> S -> R -> R -> outcome M).
  Local Notation gp := (gparticle R G RV).
  (** the random variables that only give zeros *)
  Variable Z : RV -> Prop.
  Hypothesis Z0 : Z rv_zero.
  Hypothesis ZS : forall z g, Z z -> fst (fst (rv_sample z g)) = mkPose 0 0 0 /\ Z (snd (fst (rv_sample z g))).
  Definition mastered (x : gp) : Prop := gp_master x = true -> Z (gp_guess x) /\ Z (gp_lim x).
  Definition settled (x : gp) : Prop := gp_master x = true /\ Z (gp_guess x) /\ Z (gp_lim x) /\ gp_next x = mkPose 0 0 0.
  Lemma observe_shape maps k x s maps' k' y : gp_observe rv_sample sm adder maps k x s = Ok (maps', k', y) ->
    if gp_skips x then y = x else
    gp_master y = gp_master x /\ (Z (gp_guess x) -> Z (gp_guess y)) /\ (Z (gp_lim x) -> Z (gp_lim y) /\ gp_next y = mkPose 0 0 0).
  Proof.
    unfold gp_observe. destruct (gp_skips x); [intros E; injection E as <- <- <-; reflexivity|].
    cbv zeta. set (x1 := if gp_first x then x else _). intros E.
    assert (P1 : gp_master x1 = gp_master x /\ (Z (gp_guess x) -> Z (gp_guess x1)) /\ gp_lim x1 = gp_lim x).
    { unfold x1. destruct (gp_first x) eqn:Q; [auto|]. assert (V := ZS (gp_guess x) (gp_engine x)). destruct (rv_sample (gp_guess x) (gp_engine x)) as [[n gu] g]. cbn in *. split; [reflexivity|]. split; [|reflexivity]. intros H. apply V, H. }
    destruct P1 as (P1 & P2 & P3). clearbody x1. destruct (nth_error maps (gp_map x1)) as [m|]; [|discriminate].
    apply bind_Ok_inv in E as ([[prob d] k1] & _ & E). apply bind_Ok_inv in E as ([maps1 p1] & E2 & E).
    assert (P4 : gp_master p1 = gp_master x1 /\ gp_guess p1 = gp_guess x1 /\ gp_lim p1 = gp_lim x1).
    { destruct (_ || _)%bool in E2; [apply bind_Ok_inv in E2 as (m1 & _ & E2)|]; injection E2 as <- <-; cbn; auto. }
    destruct P4 as (P4 & P5 & P6). unfold gp_reset_sm_delta, gp_set_weight in E. cbn in E. assert (V := ZS (gp_lim p1) (gp_engine p1)). destruct (rv_sample _ _) as [[nx lm] g] in E, V. cbn [fst snd] in V. injection E as <- <- <-. cbn.
    rewrite P4, P5, P6 in *. split; [exact P1|]. split; [exact P2|]. intros H. rewrite P3 in V. destruct (V H). auto.
  Qed.
  Lemma mastered_all guess lim seeds (m0 : M) (sm0 : SM) n f0 o h o' f ns : gf_new rv_sample rv_copy rv_zero guess lim seeds m0 sm0 n = Ok f0 ->
    gf_run dcos dsin rv_sample rv_copy rv_zero sm adder o f0 h = Ok (o', f, ns) -> Forall mastered (pf_heap (gf_pf f)).
  Proof.
    intros E0 E. apply (all_run dcos dsin rv_sample rv_copy rv_zero sm adder mastered) with (6 := E).
    - intros w x H. exact H.
    - intros x H C. discriminate C.
    - intros x H C. cbn. auto.
    - intros d x H. exact H.
    - intros s maps k x maps' k' y Eo H. apply observe_shape in Eo. destruct (gp_skips x); [subst; exact H|]. destruct Eo as (A & B & C). intros Hm. rewrite A in Hm. destruct (H Hm) as [H1 H2]. split; [auto|apply C, H2].
    - unfold gf_new in E0. apply bind_Ok_inv in E0 as (h1 & E1 & E0). apply bind_Ok_inv in E0 as (p & _ & E0). injection E0 as <-. cbn [gf_pf pf_heap].
      apply upd_Forall; [|intros x H C; cbn; auto]. apply (all_each mastered _ _ (fun x (H : mastered x) => (fun C : gp_master (gp_sample x) = true => match Bool.diff_false_true C with end) : mastered (gp_sample x)) _ _ E1).
      unfold pf_new. cbn [pf_heap]. set (cr := fun i : nat => _). assert (Hc : forall i, mastered (cr i)).
      { intros i. unfold cr, gp_create, gp_reset_sm_delta. cbn [gp_lim gp_engine]. destruct (rv_sample _ _) as [[? ?] ?]. intros C. discriminate C. }
      generalize (ddiv (D := R) (dofZ 1) (dofZ (Z.of_nat n))) 0%nat. clear - Hc. induction n as [|n IH]; intros w i; cbn [pf_create]; [constructor|]. constructor; [|apply IH]. exact (Hc i).
  Qed.
  Lemma settled_run o f h o' f' ns p : gf_run dcos dsin rv_sample rv_copy rv_zero sm adder o f h = Ok (o', f', ns) -> held settled (pf_heap (gf_pf f)) p -> held settled (pf_heap (gf_pf f')) p.
  Proof.
    intros E. apply (held_run dcos dsin rv_sample rv_copy rv_zero sm adder settled) with (5 := E).
    - intros w x H. exact H.
    - intros x (A & B & C & D). unfold settled. cbn. auto.
    - intros d x H. exact H.
    - intros s maps k x maps' k' y Eo (A & B & C & D). apply observe_shape in Eo. destruct (gp_skips x); [subst; unfold settled; auto|]. destruct Eo as (A1 & B1 & C1). destruct (C1 C). unfold settled. rewrite A1. auto.
  Qed.
  (** a settled particle is matched, and from its very pose *)
  Lemma settled_uses x : settled x -> ~ short_way x /\ guess_of rv_sample x = gp_pose x.
  Proof.
    intros (A & B & C & D). split.
    - unfold short_way, squared_length. rewrite D. cbn [px py pth dlt dadd dmul dabs ROps]. rewrite !R_lt_true. intros [H _]. nra.
    - unfold guess_of. destruct (gp_first x); [reflexivity|]. rewrite (proj1 (ZS _ (gp_engine x) B)). unfold pose_add. cbn [px py pth dadd ROps]. destruct (gp_pose x) as [a b c]. cbn. f_equal; ring.
  Qed.
  (** a master that is matched is settled afterwards *)
  Lemma observe_settles s ptrs : forall maps k h maps' k' h' p x, NoDup ptrs -> In p ptrs -> nth_error h p = Some x -> gp_master x = true -> mastered x -> ~ short_way x ->
    gf_observe_each rv_sample sm adder maps k h ptrs s = Ok (maps', k', h') -> held settled h' p.
  Proof.
    induction ptrs as [|q ptrs IH]; intros maps k h maps' k' h' p x ND I N Mx MM NS E; [destruct I|]. inversion ND as [|? ? Hn ND']; subst.
    cbn [gf_observe_each] in E. apply bind_Ok_inv in E as (x0 & Ex & E). apply bind_Ok_inv in E as ([[maps1 k1] y] & Ey & E).
    unfold deref in Ex. destruct (nth_error h q) as [z|] eqn:Nq; [|discriminate]. injection Ex as ->. assert (B : (q < length h)%nat) by (apply nth_error_Some; congruence).
    destruct I as [->|I].
    - rewrite N in Nq. injection Nq as <-. eapply held_observe; [|exact E|].
      + intros ma ka xa ma' ka' ya Eo (A & B1 & C & D). apply observe_shape in Eo. destruct (gp_skips xa); [subst; unfold settled; auto|]. destruct Eo as (A1 & B2 & C1). destruct (C1 C). unfold settled. rewrite A1. auto.
      + exists y. rewrite upd_nth, Nat.eqb_refl, N by exact B. split; [reflexivity|]. apply observe_shape in Ey. destruct (gp_skips x) eqn:Sk; [apply skips_short in Sk; contradiction|].
        destruct Ey as (A1 & B2 & C1). destruct (MM Mx) as [H1 H2]. destruct (C1 H2). unfold settled. rewrite A1. auto.
    - eapply (IH maps1 k1 (upd h q (fun _ => y)) maps' k' h' p x ND' I); [|exact Mx|exact MM|exact NS|exact E]. rewrite upd_nth by exact B. destruct (Nat.eqb_spec p q) as [->|]; [contradiction|exact N].
  Qed.
End Master.

(** ** equal particles *)
Section Twins.
  Context {S M SM G RV : Type} (dcos dsin : R -> R) (rv_sample : RV -> G -> pose R * RV * G) (rv_copy : RV -> RV) (rv_zero : RV)
    (sm : SM -> S -> pose R -> M -> outcome (R * pose R * SM)) (adder : M -> pose R -> S -> R -> R -> outcome M).
  Local Notation gp := (gparticle R G RV).
  
  (** from some time on the answers of the matcher depend on the scan and on the pose only *)
  Variable answer : S -> pose R -> R * pose R.
  Variable K : SM -> Prop.
  Hypothesis pure : forall k s p m sc d k', K k -> sm k s p m = Ok (sc, d, k') -> (sc, d) = answer s p /\ K k'.
  Local Notation observes s x y := (exists maps k maps' k', K k /\ gp_observe rv_sample sm adder maps k x s = Ok (maps', k', y)).
  Lemma observe_K s (x y : gp) maps k maps' k' : K k -> gp_observe rv_sample sm adder maps k x s = Ok (maps', k', y) -> K k'.
  Proof.
    intros HK E. unfold gp_observe in E. destruct (gp_skips x); [congruence|]. cbv zeta in E.
    set (x1 := if gp_first x then x else _) in *. clearbody x1. destruct (nth_error maps (gp_map x1)) as [m1|]; [|discriminate].
    apply bind_Ok_inv in E as ([[p1 d1] k1] & A1 & E). apply bind_Ok_inv in E as ([n1 q1] & B1 & E). apply (pure _ _ _ _ _ _ _ HK) in A1 as [_ A1]. congruence.
  Qed.
  Lemma observe_det s x y1 y2 : observes s x y1 -> observes s x y2 -> y1 = y2.
  Proof.
    intros (ma & ka & ma' & ka' & K1 & E1) (mb & kb & mb' & kb' & K2 & E2). unfold gp_observe in *. destruct (gp_skips x); [congruence|]. cbv zeta in *.
    set (x1 := if gp_first x then x else _) in *. clearbody x1.
    destruct (nth_error ma (gp_map x1)) as [m1|]; [|discriminate]. destruct (nth_error mb (gp_map x1)) as [m2|]; [|discriminate].
    apply bind_Ok_inv in E1 as ([[p1 d1] k1] & A1 & E1). apply bind_Ok_inv in E2 as ([[p2 d2] k2] & A2 & E2). apply (pure _ _ _ _ _ _ _ K1) in A1 as [A1 _]. apply (pure _ _ _ _ _ _ _ K2) in A2 as [A2 _]. rewrite <- A2 in A1. injection A1 as -> ->.
    apply bind_Ok_inv in E1 as ([n1 q1] & B1 & E1). apply bind_Ok_inv in E2 as ([n2 q2] & B2 & E2). assert (Q : q1 = q2).
    { destruct (_ || _)%bool in B1, B2; [apply bind_Ok_inv in B1 as (u1 & _ & B1); apply bind_Ok_inv in B2 as (u2 & _ & B2)|]; congruence. }
    subst q2. congruence.
  Qed.
  Lemma each_observes s ptrs : forall maps k h xs maps' k' h', K k -> refs h ptrs xs -> NoDup ptrs ->
    gf_observe_each rv_sample sm adder maps k h ptrs s = Ok (maps', k', h') -> (exists ys, refs h' ptrs ys /\ Forall2 (fun x y => observes s x y) xs ys) /\ (forall q, ~ In q ptrs -> nth_error h' q = nth_error h q) /\ K k'.
  Proof.
    induction ptrs as [|p ptrs IH]; intros maps k h xs maps' k' h' HK F ND E; cbn [gf_observe_each] in E.
    - injection E as <- <- <-. inversion F; subst. split; [exists []; split; constructor|auto].
    - inversion F as [|? x ? l N F']; subst. unfold deref in E. rewrite N in E. cbn [bind] in E. inversion ND as [|? ? Hn ND']; subst.
      apply bind_Ok_inv in E as ([[maps1 k1] x1] & E1 & E).
      assert (B : (p < length h)%nat) by (apply nth_error_Some; congruence).
      destruct (IH maps1 k1 (upd h p (fun _ => x1)) l maps' k' h') as ((ys & R & K') & O & KF); [exact (observe_K _ _ _ _ _ _ _ HK E1)|now apply refs_upd_other|exact ND'|exact E|].
      split.
      + exists (x1 :: ys). split; [|constructor; [eauto 7|exact K']]. constructor; [|exact R]. rewrite O by exact Hn.
        rewrite upd_nth, Nat.eqb_refl, N by exact B. reflexivity.
      + split; [|exact KF]. intros q Hq. rewrite O by (intros H; apply Hq; now right). rewrite upd_nth by exact B.
        destruct (Nat.eqb_spec q p) as [->|]; [elim Hq; now left|reflexivity].
  Qed.
  Lemma refs_at {P} (h : list P) ptrs xs i p : refs h ptrs xs -> nth_error ptrs i = Some p -> exists x, nth_error xs i = Some x /\ nth_error h p = Some x.
  Proof. intros F N. assert (H := refs_nth _ _ _ i F). rewrite N in H. destruct (nth_error xs i) as [x|]; [eauto|easy]. Qed.
  Lemma Forall2_at {A B} (Q : A -> B -> Prop) xs ys i x : Forall2 Q xs ys -> nth_error xs i = Some x -> exists y, nth_error ys i = Some y /\ Q x y.
  Proof. intros F. revert i. induction F as [|a b xs ys Hab F IH]; intros [|i] N; try discriminate; cbn in *; [injection N as <-; eauto|auto]. Qed.
  Lemma twins_scan o f s o' f' ns p q : gf_inv 0 f -> K (gf_sm f) -> gf_run dcos dsin rv_sample rv_copy rv_zero sm adder o f [EScan s] = Ok (o', f', ns) ->
    ~ far (pose_add (gf_trav f) (delta_abs (ts_delta s))) -> twins f p q -> twins f' p q /\ K (gf_sm f').
  Proof.
    intros (xs & HR & ND & _) HK E NF (Ip & Iq & x & Np & Nq).
    unfold gf_run in E. cbn [world_run] in E. apply bind_Ok_inv in E as ([w n] & E & E'). injection E' as _ <- _. unfold handle_sensor_data in E.
    apply bind_Ok_inv in E as (f1 & E1 & E). apply bind_Ok_inv in E as (f2 & E2 & E). apply bind_Ok_inv in E as (pp & _ & E). apply bind_Ok_inv in E as (mm & _ & E). injection E as <- _.
    unfold gf_update in E1. destruct (gf_each_spec (gp_update_robot_pose dcos dsin (ts_delta s)) _ _ _ HR ND) as (h1 & Eh & R1 & _). rewrite Eh in E1. cbn [bind] in E1. injection E1 as <-.
    unfold gf_observe in E2. cbn [gf_trav gf_pf gf_maps gf_sm pf_ptrs pf_heap] in E2.
    apply bind_Ok_inv in E2 as ([[maps k'] h] & E3 & E2). destruct (each_observes _ _ _ _ _ _ _ _ _ HK R1 ND E3) as ((ys & R2 & OB) & _ & HK').
    destruct (normalize_spec gp_weight gp_set_weight (mkPF h (pf_ptrs (gf_pf f))) ys R2 ND) as (g & En & Ep & _ & R3). rewrite En in E2. cbn [bind pf_ptrs] in E2, Ep.
    unfold gf_try_resample in E2. cbn [gf_trav gf_pf gf_maps gf_sm] in E2. apply not_far in NF. rewrite NF in E2. injection E2 as <-. split; [|exact HK']. unfold twins. cbn [gf_pf]. rewrite Ep. split; [exact Ip|]. split; [exact Iq|].
    apply In_nth_error in Ip as [i Ip]. apply In_nth_error in Iq as [j Iq].
    destruct (refs_at _ _ _ _ _ HR Ip) as (x1 & X1 & X2). destruct (refs_at _ _ _ _ _ HR Iq) as (x2 & Y1 & Y2). rewrite Np in X2. rewrite Nq in Y2. injection X2 as <-. injection Y2 as <-.
    set (u := gp_update_robot_pose dcos dsin (ts_delta s)) in *.
    assert (U1 : nth_error (map u xs) i = Some (u x)) by (rewrite nth_error_map, X1; reflexivity). assert (U2 : nth_error (map u xs) j = Some (u x)) by (rewrite nth_error_map, Y1; reflexivity).
    destruct (Forall2_at _ _ _ _ _ OB U1) as (y1 & V1 & W1). destruct (Forall2_at _ _ _ _ _ OB U2) as (y2 & V2 & W2). assert (Y := observe_det _ _ _ _ W1 W2). subst y2.
    rewrite Ep in R3. set (nrm := fun y : gp => gp_set_weight _ y) in R3.
    assert (T1 : nth_error (map nrm ys) i = Some (nrm y1)) by (rewrite nth_error_map, V1; reflexivity). assert (T2 : nth_error (map nrm ys) j = Some (nrm y1)) by (rewrite nth_error_map, V2; reflexivity).
    destruct (refs_at _ _ _ _ _ R3 Ip) as (z1 & Z1 & Z2). destruct (refs_at _ _ _ _ _ R3 Iq) as (z2 & Z3 & Z4). exists (nrm y1). rewrite T1 in Z1. rewrite T2 in Z3. injection Z1 as <-. injection Z3 as <-. auto.
  Qed.
  Lemma twins_run h : forall o f o' f' ns p q x y th, gf_inv 0 f -> K (gf_sm f) -> is_at (gf_trav f) x y th -> 0 <= x -> 0 <= y -> 0 <= th ->
    gf_run dcos dsin rv_sample rv_copy rv_zero sm adder o f h = Ok (o', f', ns) ->
    ~ far (mkPose (x + total (@px R) (deltas h)) (y + total (@py R) (deltas h)) (th + total (@pth R) (deltas h))) -> twins f p q -> twins f' p q.
  Proof.
    induction h as [|e h IH]; intros o f o' f' ns p q x y th I HK A X Y Th E NF T.
    - unfold gf_run in E. cbn [world_run] in E. injection E as _ <- _. exact T.
    - change (e :: h) with ([e] ++ h) in E. unfold gf_run in E. apply world_run_app in E as (o1 & f1 & n1 & n2 & E1 & E2 & _).
      assert (I1 : gf_inv 0 f1) by (eapply gf_run_inv; [exact I|exact E1]).
      destruct e as [id|id|id|s]; try (cbn [world_run] in E1; injection E1 as <- <- <-; apply (IH _ _ _ _ _ _ _ _ _ _ I1 HK A X Y Th E2 NF T)).
      assert (A1 := Rabs_pos (px (ts_delta s))). assert (A2 := Rabs_pos (py (ts_delta s))). assert (A3 := Rabs_pos (pth (ts_delta s))).
      cbn [deltas flat_map app total fold_right] in NF. fold (deltas h) in NF. fold (total (@px R) (deltas h)) (total (@py R) (deltas h)) (total (@pth R) (deltas h)) in NF.
      assert (TX := total_pos (@px R) (deltas h)). assert (TY := total_pos (@py R) (deltas h)). assert (TT := total_pos (@pth R) (deltas h)). destruct A as (WX & WY & WT).
      assert (N1 : ~ far (pose_add (gf_trav f) (delta_abs (ts_delta s)))).
      { intros F. apply NF. unfold far, pose_add, delta_abs in *. cbn [px py pth dadd dabs ROps] in *. rewrite WX, WY, WT in F. destruct F as [F|F]; [left; nra|right; lra]. }
      destruct (twins_scan _ _ _ _ _ _ _ _ I HK E1 N1 T) as [T1 HK1].
      destruct (scan_travel _ _ _ _ _ _ _ _ _ _ _ _ _ E1) as [[_ W1]|[F _]]; [|contradiction].
      assert (W2 : is_at (gf_trav f1) (x + Rabs (px (ts_delta s))) (y + Rabs (py (ts_delta s))) (th + Rabs (pth (ts_delta s)))).
      { rewrite W1. unfold is_at, pose_add, delta_abs. cbn [px py pth dadd dabs ROps]. lra. }
      apply (IH _ _ _ _ _ p q _ _ _ I1 HK1 W2) in E2; [exact E2|lra..| |exact T1].
      intros F. apply NF. unfold far in *. cbn [px py pth] in *. rewrite <- !Rplus_assoc. exact F.
  Qed.
End Twins.

(** ** a run does not fail when the matcher and the adder do not *)
Section Total.
  Context {S M SM G RV : Type} (dcos dsin : R -> R) (rv_sample : RV -> G -> pose R * RV * G) (rv_copy : RV -> RV) (rv_zero : RV)
    (sm : SM -> S -> pose R -> M -> outcome (R * pose R * SM)) (adder : M -> pose R -> S -> R -> R -> outcome M).
  Hypothesis sm_total : forall k s p m, exists r, sm k s p m = Ok r.
  Hypothesis adder_total : forall m p s q mg, exists m', adder m p s q mg = Ok m'.
  Local Notation gp := (gparticle R G RV).
  Lemma observe_total maps k (x : gp) s : (gp_map x < length maps)%nat -> exists r, gp_observe rv_sample sm adder maps k x s = Ok r.
  Proof.
    intros B. unfold gp_observe. destruct (gp_skips x); [eauto|]. cbv zeta. set (x1 := if gp_first x then x else _).
    assert (P1 : gp_map x1 = gp_map x) by (unfold x1; destruct (gp_first x); [reflexivity|]; destruct (rv_sample (gp_guess x) (gp_engine x)) as [[n gu] g]; reflexivity). clearbody x1. rewrite P1.
    destruct (nth_error maps (gp_map x)) as [m|] eqn:N; [|apply nth_error_None in N; lia].
    destruct (sm_total k (ts_scan s) (gp_pose x1) m) as ([[sc d] k1] & ->). cbn [bind]. destruct (_ || _)%bool; [|cbn [bind]; eauto].
    destruct (adder_total m (gp_pose (gp_move x1 d)) (ts_scan s) (ts_quality s) (dofZ 0)) as (m' & ->). cbn [bind]. eauto.
  Qed.
  Lemma each_total s ptrs : forall maps k h (xs : list gp), refs h ptrs xs -> NoDup ptrs -> Forall (fun x => gp_map x < length maps)%nat xs -> exists r, gf_observe_each rv_sample sm adder maps k h ptrs s = Ok r.
  Proof.
    induction ptrs as [|p ptrs IH]; intros maps k h xs F ND FM; cbn [gf_observe_each]; [eauto|].
    inversion F as [|? x ? l N F']; subst. inversion ND as [|? ? Hn ND']; subst. inversion FM as [|? ? Hx FM']; subst. unfold deref. rewrite N. cbn [bind].
    destruct (observe_total maps k x s Hx) as ([[maps1 k1] y] & E). rewrite E. cbn [bind]. apply gp_observe_keeps in E as [_ L].
    apply (IH _ _ _ l); [|exact ND'|rewrite L; exact FM']. apply refs_upd_other; [exact F'|exact Hn|]. apply nth_error_Some. congruence.
  Qed.
  Lemma run_total h : forall o f, gf_inv 0 f -> exists r, gf_run dcos dsin rv_sample rv_copy rv_zero sm adder o f h = Ok r.
  Proof.
    induction h as [|[id|id|id|s] h IH]; intros o f I; [unfold gf_run; cbn [world_run]; eauto|exact (IH (subscribe_pose o id) f I)|exact (IH (subscribe_map o id) f I)|exact (IH (destroy_observer o id) f I)|].
    destruct (gf_update_inv dcos dsin 0 f (ts_delta s) I) as (f1 & E1 & I1). assert (I1' := I1). destruct I1 as (xs & HR & ND & NE & M1 & HM & HL).
    set (s1 := mkTS (ts_delta s) (fst (ts_scan s)) (ts_quality s)).
    assert (O : exists f2, gf_observe rv_sample rv_copy rv_zero sm adder f1 s1 (snd (ts_scan s)) = Ok f2).
    { unfold gf_observe. destruct (each_total s1 _ (gf_maps f1) (gf_sm f1) _ xs HR ND) as ([[maps k] hh] & Eb); [eapply Forall_impl; [|exact HM]; cbv beta; intros a ->; exact HL|]. rewrite Eb. cbn [bind].
      apply gf_observe_each_spec with (xs := xs) in Eb as (L1 & (ys & R1 & K) & _); [|exact HR|exact ND]. apply masters_keeps in K as (K1 & K2 & K3).
      destruct (normalize_spec gp_weight gp_set_weight (mkPF hh (pf_ptrs (gf_pf f1))) ys R1 ND) as (p & En & Ep & _ & R2). rewrite En. cbn [bind]. cbn [pf_ptrs] in Ep. set (zs := map _ ys) in R2.
      assert (Z3 : zs <> []) by (unfold zs; destruct ys; [destruct xs; [easy|discriminate]|discriminate]). assert (ND2 : NoDup (pf_ptrs p)) by (rewrite Ep; exact ND).
      unfold gf_try_resample. cbn [gf_trav gf_pf gf_maps gf_sm]. destruct (_ && _)%bool; [eauto|].
      assert (T := try_resample_spec gp_weight gp_set_weight (gp_duplicate rv_copy) p zs (snd (ts_scan s)) R2 ND2 Z3).
      destruct (resampling_is_required (map gp_weight zs)); [|rewrite T; cbn [bind negb]; eauto].
      destruct T as (p2 & -> & ND3 & R3). cbn [bind negb]. unfold gf_ensure_master. rewrite (proj2 (objects_refs _ _ _) R3). cbn [bind]. destruct (existsb _ _); [cbn [bind]; eauto|].
      assert (NEw : map gp_weight zs <> []) by (destruct zs; [easy|discriminate]). assert (B := resample_bound (map gp_weight zs) (snd (ts_scan s)) NEw). rewrite map_length in B.
      destruct (heaviest_ptr_ok gp_weight p2 _ R3) as (i & q & v & -> & _); [|cbn [bind]; eauto].
      intros H. apply (f_equal (@length gp)) in H. rewrite map_length, taken_length, resample_length, map_length in H by exact B. now destruct zs. }
    destruct O as (f2 & E2). assert (I2 : gf_inv 0 f2) by (eapply gf_observe_inv; [exact I1'|exact E2]). destruct (IH o f2 I2) as ([[o' f3] ns] & E3).
    unfold gf_run. cbn [world_run]. unfold handle_sensor_data. rewrite E1. cbn [bind]. fold s1. rewrite E2. cbn [bind].
    destruct I2 as (zs & R2 & _ & NE2 & _ & HM2 & HL2). destruct (heaviest_ptr_ok gp_weight (gf_pf f2) zs R2 NE2) as (i & q & v & Eq & _ & _ & Nv & Nq).
    assert (Mv : gp_map v = 0%nat) by (rewrite Forall_forall in HM2; apply HM2; eapply nth_error_In; eauto).
    assert (Mm : exists m, nth_error (gf_maps f2) 0 = Some m) by (destruct (gf_maps f2); [cbn in HL2; lia|eexists; reflexivity]). destruct Mm as [m Mm].
    unfold gf_pose at 1, gf_map at 1. rewrite Eq. cbn [bind]. unfold deref. rewrite Nq. cbn [bind]. rewrite Mv, Mm. cbn [bind]. unfold gf_run in E3. rewrite E3. cbn [bind]. eauto.
  Qed.
End Total.
