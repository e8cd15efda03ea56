(** Weights of the GMapping filter through a whole run. *)
From Coq Require Import Reals ZArith List Lia Lra Bool.
From Flocq Require Import Core IEEE754.BinarySingleNaN IEEE754.Binary IEEE754.Bits.
From Verif.Base Require Import Outcome Num F64Facts OrdLaws.
From Verif.Model Require Import MathUtils Geometry Sensor Histogram World ParticleFilter Gmapping.
From Verif.Spec Require Import WorldSpec LostSpec.
From Verif.Proofs Require Import HistProofs ParticleProofs WorldProofs EmptyScanProofs.
Import ListNotations.

Section Weights.
  Context {D S M SM G RV : Type} {ops : DOps D}.
  Variables (dcos dsin : D -> D).
  Variables (rv_sample : RV -> G -> pose D * RV * G) (rv_copy : RV -> RV) (rv_zero : RV).
  Variables (sm_process : SM -> S -> pose D -> M -> outcome (D * pose D * SM)).
  Variable adder : M -> pose D -> S -> D -> D -> outcome M.
  Local Notation gp := (gparticle D G RV).
  Local Notation observe := (gp_observe rv_sample sm_process adder).

  (** a particle keeps its weight, or it is multiplied by an answer of the matcher *)
  Lemma observe_weight maps k (x : gp) s maps' k' y : observe maps k x s = Ok (maps', k', y) ->
    (gp_skips x = true /\ y = x) \/
    (gp_skips x = false /\ exists k0 p m prob d k1, sm_process k0 (ts_scan s) p m = Ok (prob, d, k1) /\ gp_weight y = dmul prob (gp_weight x)).
  Proof.
    unfold gp_observe. destruct (gp_skips x); [intros E; injection E as _ _ <-; left; auto|]. intros E. right. split; [reflexivity|].
    set (x1 := if gp_first x then x else _) in E. assert (W1 : gp_weight x1 = gp_weight x).
    { unfold x1. destruct (gp_first x); [reflexivity|]. destruct (rv_sample _ _) as [[noise guess] g]. reflexivity. }
    destruct (nth_error maps (gp_map x1)) as [m|]; [|discriminate]. apply bind_Ok_inv in E as ([[prob d] k1] & E1 & E). cbv zeta in E.
    apply bind_Ok_inv in E as ([maps1 p1] & E2 & E). exists k, (gp_pose x1), m, prob, d, k1. split; [exact E1|].
    assert (W2 : gp_weight p1 = gp_weight x1).
    { destruct (_ || _) in E2; [apply bind_Ok_inv in E2 as (m1 & _ & E2)|]; injection E2 as _ <-; reflexivity. }
    unfold gp_reset_sm_delta in E. destruct (rv_sample _ _) as [[nx lm] g] in E. injection E as _ _ <-. cbn. now rewrite W2, W1.
  Qed.

  Lemma observe_each_rel (Q : gp -> gp -> Prop) s ptrs : (forall maps k x maps' k' y, observe maps k x s = Ok (maps', k', y) -> Q x y) ->
    forall maps k h xs maps' k' h', refs h ptrs xs -> NoDup ptrs ->
    gf_observe_each rv_sample sm_process adder maps k h ptrs s = Ok (maps', k', h') ->
    (exists ys, refs h' ptrs ys /\ Forall2 Q xs ys) /\ (forall q, ~ In q ptrs -> nth_error h' q = nth_error h q).
  Proof.
    intros HQ. induction ptrs as [|p ptrs IH]; intros maps k h xs maps' k' h' F ND E; cbn [gf_observe_each] in E.
    - injection E as <- <- <-. inversion F; subst. split; [exists []; split; constructor|auto].
    - inversion F as [|? x ? l N F']; subst. unfold deref in E. rewrite N in E. cbn [bind] in E. inversion ND as [|? ? Hn ND']; subst.
      apply bind_Ok_inv in E as ([[maps1 k1] x1] & E1 & E). apply HQ in E1.
      assert (B : (p < length h)%nat) by (apply nth_error_Some; congruence).
      destruct (IH maps1 k1 (upd h p (fun _ => x1)) l maps' k' h') as ((ys & R & K') & O); [now apply refs_upd_other|exact ND'|exact E|].
      split.
      + exists (x1 :: ys). split; [|now constructor]. constructor; [|exact R]. rewrite O by exact Hn.
        rewrite upd_nth, Nat.eqb_refl, N by exact B. reflexivity.
      + intros q Hq. rewrite O by (intros H; apply Hq; now right). rewrite upd_nth by exact B.
        destruct (Nat.eqb_spec q p) as [->|]; [elim Hq; now left|reflexivity].
  Qed.

  Definition scaled (ws : list D) : list D := map (fun w => ddiv w (total_weight ws (dofZ 0))) ws.
  Lemma map_upd_same {A B} (g : A -> B) (f : A -> A) xs i : (forall x, g (f x) = g x) -> map g (upd xs i f) = map g xs.
  Proof.
    intros H. unfold upd. destruct (nth_error xs i) as [x|] eqn:E; [|reflexivity]. revert i E.
    induction xs as [|y xs IH]; intros [|i] E; try discriminate; cbn in *.
    - injection E as ->. now rewrite H.
    - f_equal. now apply IH.
  Qed.

  (** a scan: the weights are rescaled after the matches, and either stay or are those of drawn particles, rescaled again *)
  Lemma observe_weights mp f s samples f' xs (Q : gp -> gp -> Prop) : gf_inv mp f -> refs (pf_heap (gf_pf f)) (pf_ptrs (gf_pf f)) xs ->
    (forall maps k x maps' k' y, observe maps k x s = Ok (maps', k', y) -> Q x y) ->
    gf_observe rv_sample rv_copy rv_zero sm_process adder f s samples = Ok f' ->
    exists ys zs, Forall2 Q xs ys /\ refs (pf_heap (gf_pf f')) (pf_ptrs (gf_pf f')) zs /\ length zs = length xs /\
      ((map gp_weight zs = scaled (map gp_weight ys) /\ pf_ptrs (gf_pf f') = pf_ptrs (gf_pf f)) \/
       (resampling_is_required (scaled (map gp_weight ys)) = true /\ exists ws, length ws = length xs /\ Forall (fun w => In w (scaled (map gp_weight ys))) ws /\ map gp_weight zs = scaled ws)).
  Proof.
    intros (xs0 & R & ND & NE & H1 & HM & HL) RX HQ E. assert (X : xs0 = xs) by (apply objects_refs in R; apply objects_refs in RX; congruence). subst xs0.
    unfold gf_observe in E. apply bind_Ok_inv in E as ([[maps k] h] & E1 & E).
    apply (observe_each_rel Q s _ HQ _ _ _ xs) in E1 as ((ys & R1 & K) & _); [|exact R|exact ND].
    apply bind_Ok_inv in E as (p & E2 & E).
    destruct (normalize_spec gp_weight gp_set_weight (mkPF h (pf_ptrs (gf_pf f))) ys R1 ND) as (p' & E2' & P2 & _ & R2).
    rewrite E2 in E2'. injection E2' as <-. cbn [pf_ptrs] in P2. set (zs := map _ ys) in R2.
    assert (L1 : length ys = length xs) by (clear - K; induction K; cbn; auto).
    assert (LZ : length zs = length xs) by (unfold zs; now rewrite map_length).
    assert (Z3 : zs <> []) by (intros H; rewrite H in LZ; destruct xs; [easy|discriminate]).
    assert (WZ : map gp_weight zs = scaled (map gp_weight ys)) by (unfold zs, scaled; rewrite !map_map; reflexivity).
    assert (ND2 : NoDup (pf_ptrs p)) by (rewrite P2; exact ND).
    exists ys. unfold gf_try_resample in E. cbn [gf_trav gf_pf gf_maps gf_sm] in E.
    destruct (_ && _)%bool in E.
    - injection E as <-. exists zs. cbn [gf_pf]. auto 6.
    - apply bind_Ok_inv in E as ([p1 b] & E3 & E).
      assert (T := try_resample_spec gp_weight gp_set_weight (gp_duplicate rv_copy) p zs samples R2 ND2 Z3). rewrite WZ in T.
      destruct (resampling_is_required (scaled (map gp_weight ys))) eqn:RR.
      + destruct T as (p2 & E3' & ND3 & R3). rewrite E3 in E3'. injection E3' as -> ->. cbn [negb] in E.
        cbv zeta in R3. set (ts := taken _ _ _ _) in R3.
        assert (NEw : scaled (map gp_weight ys) <> []) by (rewrite <- WZ; destruct zs; [easy|discriminate]).
        assert (B := resample_bound (scaled (map gp_weight ys)) samples NEw). rewrite <- WZ, map_length in B. rewrite WZ in B.
        assert (LT : length ts = length xs) by (unfold ts; rewrite taken_length, resample_length by exact B; rewrite <- WZ; now rewrite map_length).
        assert (FT : Forall (fun w => In w (scaled (map gp_weight ys))) (map gp_weight ts)).
        { apply Forall_map. unfold ts. apply taken_all; [now intros|]. apply Forall_forall. intros z Hz. rewrite <- WZ. now apply in_map. }
        apply bind_Ok_inv in E as (p3 & E4 & E). injection E as <-. cbn [gf_pf].
        assert (W3 : map gp_weight (map (rescaled gp_weight gp_set_weight (total_weight (map gp_weight ts) (dofZ 0))) ts) = scaled (map gp_weight ts)) by (unfold scaled, rescaled; rewrite !map_map; reflexivity).
        set (us := map _ ts) in R3, W3.
        assert (LU : length us = length xs) by (unfold us; now rewrite map_length).
        assert (NEU : us <> []) by (intros H; rewrite H in LU; destruct xs; [easy|discriminate]).
        unfold gf_ensure_master in E4. rewrite (proj2 (objects_refs _ _ _) R3) in E4. cbn [bind] in E4.
        destruct (existsb gp_master us).
        * injection E4 as <-. exists us. split; [exact K|]. split; [exact R3|]. split; [exact LU|]. right. split; [reflexivity|]. exists (map gp_weight ts). rewrite map_length. auto.
        * destruct (heaviest_ptr_ok gp_weight p2 us R3 NEU) as (i & q & x & Ep & _ & Np & Nx & _). rewrite Ep in E4. cbn [bind] in E4. injection E4 as <-. cbn [pf_heap pf_ptrs].
          exists (upd us i (gp_mark_master rv_zero)). split; [exact K|]. split; [now apply refs_upd_at|]. split; [now rewrite upd_length|]. right. split; [reflexivity|].
          exists (map gp_weight ts). rewrite map_length. split; [exact LT|]. split; [exact FT|]. rewrite map_upd_same by reflexivity. exact W3.
      + rewrite E3 in T. injection T as -> ->. cbn [negb] in E. injection E as <-. exists zs. cbn [gf_pf]. auto 6.
  Qed.

  Lemma update_weights mp (f : gfilter D M SM G RV) d f' xs : gf_inv mp f -> refs (pf_heap (gf_pf f)) (pf_ptrs (gf_pf f)) xs -> gf_update dcos dsin f d = Ok f' ->
    gf_inv mp f' /\ pf_ptrs (gf_pf f') = pf_ptrs (gf_pf f) /\ refs (pf_heap (gf_pf f')) (pf_ptrs (gf_pf f')) (map (gp_update_robot_pose dcos dsin d) xs).
  Proof.
    intros I RX E. destruct (gf_update_inv dcos dsin mp f d I) as (f2 & E2 & I2). rewrite E in E2. injection E2 as <-. split; [exact I2|].
    destruct I as (xs0 & R & ND & _). unfold gf_update in E. destruct (gf_each_spec (gp_update_robot_pose dcos dsin d) _ _ _ RX ND) as (h & Eh & R' & _).
    rewrite Eh in E. cbn [bind] in E. injection E as <-. cbn. auto.
  Qed.

  (** an invariant of filters through a run *)
  Local Notation run := (gf_run dcos dsin rv_sample rv_copy rv_zero sm_process adder).
  Lemma run_keeps (J : gfilter D M SM G RV -> Prop) mp hist : (forall f d f', gf_inv mp f -> J f -> gf_update dcos dsin f d = Ok f' -> J f') ->
    (forall f s samples f', gf_inv mp f -> J f -> gf_observe rv_sample rv_copy rv_zero sm_process adder f s samples = Ok f' -> J f') ->
    forall o f o' f' ns, gf_inv mp f -> J f -> run o f hist = Ok (o', f', ns) -> J f'.
  Proof.
    intros JU JO. unfold gf_run. induction hist as [|[id|id|id|s] hist IH]; intros o f o' f' ns I Jf E; cbn [world_run] in E.
    - now injection E as <- <- <-.
    - eauto.
    - eauto.
    - eauto.
    - apply bind_Ok_inv in E as ([w n] & E1 & E). apply bind_Ok_inv in E as ([[o1 w1] n1] & E2 & E). injection E as <- <- <-.
      unfold handle_sensor_data in E1. apply bind_Ok_inv in E1 as (w2 & E3 & E1).
      destruct (gf_update_inv dcos dsin mp f (ts_delta s) I) as (w2' & E3' & I2). rewrite E3 in E3'. injection E3' as <-.
      apply bind_Ok_inv in E1 as (w3 & E4 & E1). assert (I3 := gf_observe_inv rv_sample rv_copy rv_zero sm_process adder mp w2 _ _ _ I2 E4).
      apply bind_Ok_inv in E1 as (pp & _ & E1). apply bind_Ok_inv in E1 as (mm & _ & E1). injection E1 as <- <-.
      apply (IH _ _ _ _ _) in E2; [exact E2|exact I3|]. eapply JO; [exact I2| |exact E4]. eauto.
  Qed.

  Lemma new_weights guess lim seeds (m : M) (sm : SM) n f : (0 < n)%nat -> gf_new rv_sample rv_copy rv_zero guess lim seeds m sm n = Ok f ->
    gf_inv 0 f /\ exists xs, refs (pf_heap (gf_pf f)) (pf_ptrs (gf_pf f)) xs /\ map gp_weight xs = repeat (ddiv (dofZ 1) (dofZ (Z.of_nat n))) n.
  Proof.
    intros Hn E0. destruct (gf_new_inv rv_sample rv_copy rv_zero guess lim seeds m sm n Hn) as (f1 & E & I & L). rewrite E0 in E. injection E as <-. split; [exact I|].
    revert E0. unfold gf_new. set (cr := fun i => gp_create rv_sample rv_copy guess lim 0 (seeds i)). cbv zeta.
    unfold pf_new. cbn [pf_heap pf_ptrs]. set (w := ddiv _ _).
    set (xs := map (fun i => gp_set_weight w (cr i)) (seq 0 n)).
    assert (R : refs (pf_create gp_set_weight cr n 0 w) (seq 0 n) xs).
    { unfold refs, xs. clear - cr. assert (GG : forall l, Forall (fun i => (i < n)%nat) l -> Forall2 (fun p x => nth_error (pf_create gp_set_weight cr n 0 w) p = Some x) l (map (fun i => gp_set_weight w (cr i)) l)).
      { intros l H. induction H as [|i l Hi H IH]; cbn [map]; constructor; [|exact IH]. rewrite pf_create_nth by exact Hi. reflexivity. }
      apply GG. apply Forall_forall. intros i Hi. apply in_seq in Hi. lia. }
    assert (ND := seq_NoDup n 0).
    destruct (gf_each_spec (gp_sample (G := G)) _ _ _ R ND) as (h & Eg & R' & _). rewrite Eg. cbn [bind].
    set (ys := map gp_sample xs) in R'.
    assert (LY : length ys = n) by (unfold ys, xs; now rewrite !map_length, seq_length).
    assert (NE : ys <> []) by (intros H; rewrite H in LY; cbn in LY; lia).
    destruct (heaviest_ptr_ok gp_weight (mkPF h (seq 0 n)) ys R' NE) as (i & p & x & Ep & _ & Np & Nx & _). rewrite Ep. cbn [bind]. intros E'. injection E' as <-.
    exists (upd ys i (gp_mark_master rv_zero)). cbn [gf_pf pf_heap pf_ptrs]. split; [now apply refs_upd_at|].
    rewrite map_upd_same by reflexivity. unfold ys, xs. rewrite !map_map. cbn [gp_weight gp_sample gp_set_weight]. clearbody w. clear. generalize 0%nat.
    induction n as [|n IH]; intros i; cbn [seq map repeat]; [reflexivity|]. f_equal. apply IH.
  Qed.
End Weights.

(** ** binary64: NaN *)
Section Nan.
  Context {S M SM G RV : Type}.
  Variables (dcos dsin : F64 -> F64).
  Variables (rv_sample : RV -> G -> pose F64 * RV * G) (rv_copy : RV -> RV) (rv_zero : RV).
  Variables (sm_process : SM -> S -> pose F64 -> M -> outcome (F64 * pose F64 * SM)).
  Variable adder : M -> pose F64 -> S -> F64 -> F64 -> outcome M.
  Local Notation gp := (gparticle F64 G RV).
  Local Notation isnan := (fun w : F64 => disnan w = true).

  Lemma sum_squares_nan ws : forall acc : F64, disnan acc = true \/ Exists isnan ws -> disnan (sum_squares ws acc) = true.
  Proof.
    induction ws as [|w ws IH]; intros acc H; cbn [sum_squares]; [destruct H as [H|H]; [exact H|inversion H]|].
    apply IH. destruct H as [H|H]; [left; now apply F_nan_add_l|]. inversion H; subst; [left; now apply F_nan_add_r, F_nan_mul_l|now right].
  Qed.
  Lemma nan_not_resampled ws : Exists isnan ws -> resampling_is_required ws = false.
  Proof. intros H. unfold resampling_is_required. apply F_nan_lt_l, F_nan_mul_l, F_nan_div_r, sum_squares_nan. now right. Qed.
  Lemma scaled_nan ws : Exists isnan ws -> Forall isnan (scaled ws).
  Proof. intros H. apply Forall_map. apply Forall_forall. intros w _. apply F_nan_div_r, F_total_nan. now right. Qed.
  Lemma Forall_Exists {A} (P : A -> Prop) l : l <> [] -> Forall P l -> Exists P l.
  Proof. destruct l; [easy|]. intros _ H. inversion H; subst. now left. Qed.

  (** if some weight is NaN after the matches, all the weights are afterwards, and nothing is resampled *)
  Lemma observe_nan mp f s samples f' xs (Q : gp -> gp -> Prop) : gf_inv mp f -> refs (pf_heap (gf_pf f)) (pf_ptrs (gf_pf f)) xs ->
    (forall maps k x maps' k' y, gp_observe rv_sample sm_process adder maps k x s = Ok (maps', k', y) -> Q x y) ->
    (forall ys, Forall2 Q xs ys -> Exists isnan (scaled (map gp_weight ys))) ->
    gf_observe rv_sample rv_copy rv_zero sm_process adder f s samples = Ok f' ->
    pf_ptrs (gf_pf f') = pf_ptrs (gf_pf f) /\ exists ys zs, Forall2 Q xs ys /\ refs (pf_heap (gf_pf f')) (pf_ptrs (gf_pf f')) zs /\ map gp_weight zs = scaled (map gp_weight ys) /\ length zs = length xs.
  Proof.
    intros I R HQ HN E. destruct (observe_weights rv_sample rv_copy rv_zero sm_process adder mp f s samples f' xs Q I R HQ E) as (ys & zs & F & RZ & L & [[W P]|[RR _]]).
    - split; [exact P|]. exists ys, zs. auto.
    - rewrite nan_not_resampled in RR by auto. discriminate.
  Qed.

  Lemma observe_lost mp f s samples f' xs (Q : gp -> gp -> Prop) : gf_inv mp f -> refs (pf_heap (gf_pf f)) (pf_ptrs (gf_pf f)) xs ->
    (forall maps k x maps' k' y, gp_observe rv_sample sm_process adder maps k x s = Ok (maps', k', y) -> Q x y) ->
    (forall ys, Forall2 Q xs ys -> Forall isnan (scaled (map gp_weight ys))) ->
    gf_observe rv_sample rv_copy rv_zero sm_process adder f s samples = Ok f' -> lost f' /\ pf_ptrs (gf_pf f') = pf_ptrs (gf_pf f).
  Proof.
    intros I R HQ HN E. assert (NE : xs <> []) by (destruct I as (xs0 & R0 & _ & NE & _); apply objects_refs in R0; apply objects_refs in R; congruence).
    destruct (observe_nan mp f s samples f' xs Q I R HQ) as (P & ys & zs & F & RZ & W & L); [|exact E|].
    - intros ys F. apply Forall_Exists; [|now apply HN]. inversion F; subst; [easy|discriminate].
    - split; [|exact P]. exists zs. split; [apply objects_refs; exact RZ|]. split; [destruct zs; [destruct xs; [easy|discriminate]|discriminate]|].
      apply (Forall_map gp_weight isnan). rewrite W. now apply HN.
  Qed.
  Lemma scaled_zero ws : Forall is_zero ws -> Forall isnan (scaled ws).
  Proof.
    intros H. apply Forall_map. assert (T : is_zero (total_weight ws (dofZ 0))) by (apply F_total_zero; [exists false; reflexivity|exact H]).
    eapply Forall_impl; [|exact H]. intros w Hw. now apply F_zero_div_zero.
  Qed.
  Lemma zero_times (p w : F64) : is_zero p -> is_zero (dmul p w) \/ disnan (dmul p w) = true.
  Proof. intros [b ->]. destruct w; cbn; unfold is_zero; eauto. Qed.

  Lemma scan_parts o f s o' f' ns : gf_run dcos dsin rv_sample rv_copy rv_zero sm_process adder o f [EScan s] = Ok (o', f', ns) ->
    exists f1, gf_update dcos dsin f (ts_delta s) = Ok f1 /\
      gf_observe rv_sample rv_copy rv_zero sm_process adder f1 (mkTS (ts_delta s) (fst (ts_scan s)) (ts_quality s)) (snd (ts_scan s)) = Ok f'.
  Proof.
    unfold gf_run. cbn [world_run]. intros E. apply bind_Ok_inv in E as ([w nn] & E2 & E3). cbn [bind] in E3. injection E3 as _ <- _.
    unfold handle_sensor_data in E2. apply bind_Ok_inv in E2 as (f1 & EU & E2). apply bind_Ok_inv in E2 as (f2 & EO & E2). apply bind_Ok_inv in E2 as (pp & _ & E2). apply bind_Ok_inv in E2 as (mm & _ & E2). injection E2 as <- _.
    eauto.
  Qed.

  Lemma heaviest_last (ws : list F64) : forall i b bw, disnan bw = true -> Forall isnan ws ->
    heaviest ws i (Some (b, bw)) = Some (match ws with [] => b | _ => (i + length ws - 1)%nat end).
  Proof.
    induction ws as [|w ws IH]; intros i b bw NB H; cbn [heaviest]; [reflexivity|]. inversion H; subst.
    rewrite F_nan_lt_l by assumption. rewrite IH by assumption. f_equal. destruct ws; cbn [length]; lia.
  Qed.
End Nan.

Lemma eq_zero_is_zero (x : F64) : deq x (dofZ 0) = true -> is_zero x.
Proof.
  intros E. destruct x as [b|b|b pl e|b mm ee bb]; [now exists b|destruct b; discriminate E|discriminate E|]. exfalso.
  destruct b; cbv in E; discriminate E.
Qed.
