(** Proofs about the drift detector. *)
From Coq Require Import ZArith List Bool Lia Reals Lra.
From Flocq Require Import Core.
From Verif.Base Require Import Outcome Num F64Facts OrdLaws.
From Verif.Model Require Import MathUtils Geometry Sensor Histogram Matchers DriftDetector.
From Verif.Spec Require Import MatchSpec DriftSpec.
From Verif.Proofs Require Import MatcherProofs HistProofs TrigProofs CompareProofs.
Import ListNotations.
Local Open Scope Z_scope.

(** *** the search along one direction *)
Section Polar.
  Context {D : Type} {ops : DOps D} {laws : OrdLaws ops}.
  Variables (fcos fsin : D -> D) (cfg : polar_cfg D) (score : pose D -> D).
  Definition polar_pose (b : pose D) (d : D) : pose D := pose_add b (mkPose (dmul (fcos (from_dir cfg)) d) (dmul (fsin (from_dir cfg)) d) (dofZ 0)).
  Lemma polar_run : to_dir cfg = from_dir cfg -> forall ds d, steps_while (step_dst cfg) (to_dst cfg) d ds ->
    forall fuel pb best tested b, (length ds <= fuel)%nat -> (match pb with Some p => p = b | None => best = b end) ->
    exists e best' tested', pe_loop (polar_enum cfg fcos fsin) score [] fuel (mkPolar pb (from_dir cfg) d) best (score best) tested [] =
      Ok (e, best', score best', tested', []) /\ tested' = tested ++ map (polar_pose b) ds.
  Proof.
    intros Hd ds d S. induction S as [d N|d ds L S IH]; intros fuel pb best tested b Hf Hb.
    - exists (mkPolar pb (from_dir cfg) d), best, tested.
      destruct fuel; cbn [pe_loop polar_enum e_has_next polar_has_next pl_dst]; unfold polar_has_next; cbn [pl_dst]; rewrite N; split; [reflexivity|now rewrite app_nil_r|reflexivity|now rewrite app_nil_r].
    - destruct fuel as [|fuel]; [cbn in Hf; lia|]. cbn [length] in Hf.
      cbn [pe_loop polar_enum e_has_next e_next e_feedback]. unfold polar_has_next. cbn [pl_dst]. rewrite L.
      unfold polar_next. cbn [pl_base pl_dir pl_dst].
      assert (Eb : match pb with Some b0 => b0 | None => best end = b) by (destruct pb; exact Hb). rewrite Eb.
      change (pose_add b (mkPose (dmul (fcos (from_dir cfg)) d) (dmul (fsin (from_dir cfg)) d) (dofZ 0))) with (polar_pose b d).
      unfold polar_feedback at 1 2. cbn [pl_dir pl_base pl_dst]. rewrite Hd, lt_irrefl_. cbn [notify flat_map app].
      destruct (dlt (score best) (score (polar_pose b d))) eqn:Hb'.
      + destruct (IH fuel (Some b) (polar_pose b d) (tested ++ [polar_pose b d]) b ltac:(lia) eq_refl) as (e & best' & t' & E & ->).
        exists e, best', (tested ++ polar_pose b d :: map (polar_pose b) ds). split; [|reflexivity]. rewrite <- app_assoc in E. exact E.
      + destruct (IH fuel (Some b) best (tested ++ [polar_pose b d]) b ltac:(lia) eq_refl) as (e & best' & t' & E & ->).
        exists e, best', (tested ++ polar_pose b d :: map (polar_pose b) ds). split; [|reflexivity]. rewrite <- app_assoc in E. exact E.
  Qed.
  (** all the distances are tried from the first pose, and the first best of them (and of that pose) is the result *)
  Lemma polar_search ds fuel b : to_dir cfg = from_dir cfg -> steps_while (step_dst cfg) (to_dst cfg) (from_dst cfg) ds -> (length ds <= fuel)%nat ->
    exists e best, pe_loop (polar_enum cfg fcos fsin) score [] fuel (polar_new cfg) b (score b) [b] [] = Ok (e, best, score best, b :: map (polar_pose b) ds, []) /\
      first_best score (b :: map (polar_pose b) ds) best.
  Proof.
    intros Hd S Hf. destruct (polar_run Hd ds _ S fuel None b [b] b Hf eq_refl) as (e & best & t & E & ->).
    exists e, best. split; [exact E|]. apply pe_loop_spec in E; [|apply first_best_single]. apply E.
  Qed.
End Polar.

(** *** the first largest column *)
Lemma max_from_spec l : forall all best bi i, (bi < i)%nat -> nth_error all bi = Some best -> (forall k x, nth_error all (i + k) = Some x <-> nth_error l k = Some x) ->
  (forall k x, (k < i)%nat -> nth_error all k = Some x -> x <= best) -> (forall k x, (k < bi)%nat -> nth_error all k = Some x -> x < best) ->
  exists v, nth_error all (max_from best bi i l) = Some v /\ (forall k x, nth_error all k = Some x -> x <= v) /\
    (forall k x, (k < max_from best bi i l)%nat -> nth_error all k = Some x -> x < v).
Proof.
  induction l as [|x l IH]; intros all best bi i Hbi Hb Hl Hm Hf; cbn [max_from].
  - exists best. split; [exact Hb|]. split; [|exact Hf]. intros k y Hy. destruct (Nat.lt_ge_cases k i) as [H|H]; [eapply Hm; eauto|].
    replace k with (i + (k - i))%nat in Hy by lia. apply Hl in Hy. destruct (k - i)%nat; discriminate Hy.
  - assert (Hx : nth_error all i = Some x) by (rewrite <- (Nat.add_0_r i); apply Hl; reflexivity).
    assert (Hl' : forall k y, nth_error all (S i + k) = Some y <-> nth_error l k = Some y) by (intros k y; replace (S i + k)%nat with (i + S k)%nat by lia; apply Hl).
    destruct (Z.ltb_spec best x).
    + apply IH; [lia|exact Hx|exact Hl'| |].
      * intros k y Hk Hy. destruct (Nat.eq_dec k i) as [->|]; [rewrite Hx in Hy; injection Hy as ->; lia|]. specialize (Hm k y ltac:(lia) Hy). lia.
      * intros k y Hk Hy. specialize (Hm k y Hk Hy). lia.
    + apply IH; [lia|exact Hb|exact Hl'| |exact Hf].
      intros k y Hk Hy. destruct (Nat.eq_dec k i) as [->|]; [rewrite Hx in Hy; injection Hy as ->; lia|]. apply (Hm k y ltac:(lia) Hy).
Qed.
Lemma hist_max_i_spec {D} (h : hist D) m : hist_max_i h = Ok m ->
  exists v, nth_error (h_cols h) m = Some v /\ (forall k x, nth_error (h_cols h) k = Some x -> x <= v) /\ (forall k x, (k < m)%nat -> nth_error (h_cols h) k = Some x -> x < v).
Proof.
  unfold hist_max_i. destruct (h_cols h) as [|x l] eqn:E; [discriminate|]. intros H. injection H as <-.
  apply max_from_spec; [lia|reflexivity|intros k y; reflexivity| |].
  - intros k y Hk Hy. assert (k = 0)%nat as -> by lia. injection Hy as ->. lia.
  - intros k y Hk. lia.
Qed.

(** *** two fifths, in binary64 *)
Local Open Scope R_scope.
Lemma F_04 : F_fin (dlit 4 10 : F64) = true /\ F2R64 (dlit 4 10) = 7205759403792794 / 18014398509481984.
Proof.
  assert (H : match (dlit 4 10 : F64) with Binary.B754_finite _ _ s m e _ => ((Zpos m =? 7205759403792794) && (e =? -54) && negb s)%Z | _ => false end = true) by (vm_compute; reflexivity).
  destruct (dlit 4 10 : F64) as [|?|?|s m e Hb]; try discriminate H. apply andb_true_iff in H. destruct H as [H Hs]. apply andb_true_iff in H. destruct H as [Hm He].
  apply Z.eqb_eq in Hm. apply Z.eqb_eq in He. destruct s; [discriminate Hs|]. split; [reflexivity|].
  cbn [F2R64 Binary.B2R]. unfold F2R64, Binary.B2R. rewrite He. unfold F2R. cbn [cond_Zopp Fnum Fexp]. rewrite Hm. cbn [bpow Z.pow_pos Pos.iter]. 
  unfold Rdiv. f_equal.
Qed.
Lemma two_fifths (c n : Z) : (0 <= c < 2 ^ 32)%Z -> (0 <= n < 2 ^ 32)%Z ->
  dlt (dofZ c : F64) (dmul (dlit 4 10) (dofZ n)) = (5 * c <? 2 * n)%Z.
Proof.
  intros Hc Hn. destruct F_04 as [F4 E4]. destruct (F_ofZ_correct c ltac:(lia)) as [Ec Fc]. destruct (F_ofZ_correct n ltac:(lia)) as [En Fn].
  set (k := 7205759403792794 / 18014398509481984) in *.
  assert (Bc : 0 <= IZR c <= 4294967296) by (split; apply IZR_le; lia). assert (Bn : 0 <= IZR n <= 4294967296) by (split; apply IZR_le; lia).
  assert (K : k = 2 / 5 * (1 + / 18014398509481984)) by (unfold k; field).
  assert (NO : no_ovf (F2R64 (dlit 4 10) * F2R64 (dofZ n))).
  { rewrite E4, En. apply (no_ovf_le (IZR (2 ^ 53))); [apply fmt_IZR; lia| |].
    - change (IZR (2 ^ 53)) with 9007199254740992. unfold fmax_bound. apply Rlt_le_trans with (bpow radix2 54); [cbn; lra|]. apply bpow_le. vm_compute. discriminate.
    - change (IZR (2 ^ 53)) with 9007199254740992. rewrite Rabs_right; rewrite K; nra. }
  destruct (F_mul_correct _ _ F4 Fn NO) as [Em Fm]. rewrite E4, En in Em.
  destruct (Z.ltb_spec (5 * c) (2 * n)) as [L|L].
  - apply F_lt_fin; [exact Fc|exact Fm|]. rewrite Ec, Em.
    assert (L' : 5 * IZR c + 1 <= 2 * IZR n) by (rewrite <- !mult_IZR, <- plus_IZR; apply IZR_le; lia).
    (* the next double after c is at most c + 1/8 *)
    assert (Hf : fmt64 (IZR (8 * c + 1) / 8)).
    { replace (IZR (8 * c + 1) / 8) with (F2R (Float radix2 (8 * c + 1) (-3))) by (unfold F2R; cbn [Fnum Fexp bpow Z.pow_pos Pos.iter]; change (Z.pow_pos radix2 3) with 8%Z; unfold Rdiv; reflexivity).
      apply generic_format_FLT. exists (Float radix2 (8 * c + 1) (-3)); [reflexivity| |]; cbn [Fnum Fexp]; [|lia]. change (Z.pow radix2 53) with (2 ^ 53)%Z. lia. }
    apply Rlt_le_trans with (IZR (8 * c + 1) / 8); [rewrite plus_IZR, mult_IZR; lra|]. apply rnd_ge; [exact Hf|]. rewrite plus_IZR, mult_IZR, K. nra.
  - apply F_lt_fin_false; [exact Fc|exact Fm|]. rewrite Ec, Em.
    assert (L' : 2 * IZR n <= 5 * IZR c) by (rewrite <- !mult_IZR; apply IZR_le; lia).
    assert (Fmt : fmt64 (IZR c)) by (apply fmt_IZR; lia).
    destruct (Rle_or_lt (rnd (k * IZR n)) (IZR c)) as [|Gt]; [assumption|exfalso].
    assert (Nr : Rabs (rnd (k * IZR n) - k * IZR n) <= Rabs (IZR c - k * IZR n)).
    { destruct (round_N_pt radix2 fexp64 (fun x => negb (Z.even x)) (k * IZR n)) as [_ P]. apply P. exact Fmt. }
    assert (S : succ radix2 fexp64 (IZR c) <= rnd (k * IZR n)) by (apply succ_le_lt; [typeclasses eauto|exact Fmt|apply rnd_fmt|exact Gt]).
    rewrite succ_eq_pos in S by lra.
    assert (Up : k * IZR n <= IZR c * (1 + / 18014398509481984)) by (rewrite K; nra).
    destruct (Rle_or_lt (k * IZR n) (IZR c)) as [H|H].
    + assert (rnd (k * IZR n) <= IZR c) by (apply rnd_le_fmt; assumption). lra.
    + assert (U : Rabs (IZR c) * bpow radix2 (- (53)) < ulp radix2 fexp64 (IZR c)) by (apply ulp_FLT_gt; reflexivity).
      rewrite (Rabs_right (IZR c)) in U by lra. change (bpow radix2 (- (53))) with (/ 9007199254740992) in U.
      rewrite (Rabs_left (IZR c - k * IZR n)) in Nr by lra. apply Rabs_le_inv in Nr. lra.
Qed.

(** *** columns over the reals *)
Lemma in_column_true i e : in_column i e = true <-> INR i * (PI / 20) <= edge_angle e < (INR i + 1) * (PI / 20).
Proof. unfold in_column. destruct (Rle_dec _ _) as [A|A]; [destruct (Rlt_dec _ _) as [B|B]|]; split; intros H; try discriminate; try reflexivity; try lra. Qed.
Lemma in_column_unique i j e : in_column i e = true -> in_column j e = true -> i = j.
Proof.
  rewrite !in_column_true. intros [A B] [A' B']. assert (P := PI_RGT_0). assert (Q : 0 < PI / 20) by lra.
  assert (INR i < INR j + 1) by (apply Rmult_lt_reg_r with (PI / 20); lra). assert (INR j < INR i + 1) by (apply Rmult_lt_reg_r with (PI / 20); lra).
  rewrite <- S_INR in *. apply INR_lt in H. apply INR_lt in H0. lia.
Qed.
Lemma hist_index_column e : exists k, hist_index PI 20 (edge_angle e) = Ok k /\ (k < 20)%nat /\ in_column k e = true.
Proof.
  destruct (hist_index_R 20 (edge_angle e) ltac:(lia) (ox_angle_range _ _)) as (k & E & L & R'). exists k. split; [exact E|]. split; [exact L|].
  apply in_column_true. replace (INR 20) with 20 in R' by (cbn; lra). exact R'.
Qed.
Lemma count_column es idx i : Forall2 (fun e k => hist_index PI 20 (edge_angle e) = Ok k /\ (k < 20)%nat) es idx -> count_occ Nat.eq_dec idx i = length (filter (in_column i) es).
Proof.
  induction 1 as [|e k es idx [E L] F IH]; [reflexivity|]. cbn [count_occ filter]. destruct (hist_index_column e) as (k' & E' & _ & C). rewrite E in E'. injection E' as <-.
  destruct (Nat.eq_dec k i) as [->|N]; [rewrite C; cbn [length]; now rewrite IH|].
  destruct (in_column i e) eqn:C'; [exfalso; apply N; eapply in_column_unique; eauto|exact IH].
Qed.
Lemma walls_length pts : length (walls pts) = length (tl pts).
Proof. destruct pts as [|p l]; [reflexivity|]. apply edges_length. Qed.
Lemma walls_snd pts : map snd (walls pts) = tl pts.
Proof. destruct pts as [|p l]; [reflexivity|]. cbn [walls tl]. revert p. induction l as [|q l IH]; intros p; [reflexivity|]. cbn [edges map snd]. now rewrite IH. Qed.
Lemma hist20 pts : exists h, hist_reset cos sin acos PI 20 pts = Ok h /\ h_n h = 20%nat /\ length (h_cols h) = 20%nat /\
  (forall i, (i < 20)%nat -> nth_error (h_cols h) i = Some (Z.of_nat (column_size pts i))) /\
  (forall k e, nth_error (walls pts) k = Some e -> nth_error (h_dirs h) (S k) = Some (edge_angle e)).
Proof.
  destruct pts as [|p pts].
  - eexists. split; [reflexivity|]. cbn [h_n h_cols h_dirs walls]. split; [reflexivity|]. split; [apply repeat_length|]. split; [|intros [|k] e H; discriminate H].
    intros i Hi. rewrite (nth_error_repeat _ Hi). reflexivity.
  - unfold hist_reset. destruct (hist_loop_R 20 pts ltac:(lia) p (repeat 0%Z 20) (repeat (dofZ 0) 20) (repeat_length _ _)) as (cols & sums & idx & E & F & HL & HC).
    rewrite E. cbn [bind]. eexists. split; [reflexivity|]. cbn [h_n h_cols h_dirs]. split; [reflexivity|]. split; [exact HL|]. split.
    + intros i Hi. rewrite HC, (nth_error_repeat _ Hi). cbn [option_map]. rewrite (count_column _ _ i F). reflexivity.
    + intros k e He. cbn [walls] in He. cbn [nth_error]. rewrite nth_error_map, He. reflexivity.
Qed.
Lemma hist_value_wall pts h k e : hist_reset cos sin acos PI 20 pts = Ok h -> nth_error (walls pts) k = Some e ->
  exists i, (i < 20)%nat /\ in_column i e = true /\ hist_value PI h pts (S k) = Ok (Z.of_nat (column_size pts i)).
Proof.
  intros E He. destruct (hist20 pts) as (h' & E' & Hn & _ & HC & HD). rewrite E in E'. injection E' as <-.
  destruct (hist_index_column e) as (i & Ei & Li & Ci). exists i. split; [exact Li|]. split; [exact Ci|].
  unfold hist_value. rewrite (HD k e He), Hn, Ei. cbn [bind]. rewrite (HC i Li). reflexivity.
Qed.
Lemma dd_kept_spec pts h top : hist_reset cos sin acos PI 20 pts = Ok h -> forall ws k, (forall j, nth_error (walls pts) (k + j) = nth_error ws j) ->
  exists kept, dd_kept PI h pts (Z.of_nat top) (S k) (map snd ws) = Ok kept /\ ends_outside (column_size pts) top ws kept.
Proof.
  intros E. induction ws as [|e ws IH]; intros k Hk.
  - exists []. split; reflexivity.
  - destruct (hist_value_wall pts h k e E) as (i & Li & Ci & V); [rewrite <- (Nat.add_0_r k), Hk; reflexivity|].
    destruct (IH (S k)) as (rest & R' & O); [intros j; replace (S k + j)%nat with (k + S j)%nat by lia; apply Hk|].
    exists (if Nat.eqb (column_size pts i) top then rest else snd e :: rest). split.
    + cbn [dd_kept map]. rewrite V. cbn [bind]. rewrite R'. cbn [bind].
      destruct (Z.eqb_spec (Z.of_nat top) (Z.of_nat (column_size pts i))) as [Q|Q]; destruct (Nat.eqb_spec (column_size pts i) top); try reflexivity; lia.
    + exists i, rest. auto.
Qed.
Lemma largest_exists pts : exists m, largest_column pts m.
Proof.
  destruct (hist20 pts) as (h & E & Hn & HL & HC & HD). destruct (hist_max_i h) as [m| | |] eqn:Em;
    try (exfalso; unfold hist_max_i in Em; destruct (h_cols h); [discriminate HL|discriminate Em]).
  destruct (hist_max_i_spec h m Em) as (v & Hv & M & F). exists m.
  assert (Lm : (m < 20)%nat) by (rewrite <- HL; apply nth_error_Some; congruence). rewrite (HC m Lm) in Hv. injection Hv as <-.
  split; [exact Lm|]. split.
  - intros i Li. specialize (M i _ (HC i Li)). lia.
  - intros i Li. specialize (F i _ Li (HC i ltac:(lia))). lia.
Qed.
Lemma largest_unique pts m m' : largest_column pts m -> largest_column pts m' -> m = m'.
Proof.
  intros (A & B & C) (A' & B' & C'). destruct (Nat.lt_trichotomy m m') as [H|[H|H]]; [|exact H|].
  - specialize (C' m H). specialize (B m' A'). lia.
  - specialize (C m' H). specialize (B' m A). lia.
Qed.

(** *** the histogram in any arithmetic *)
Local Open Scope Z_scope.
Section AnyHist.
  Context {D : Type} {ops : DOps D}.
  Variables (fcos fsin facos : D -> D) (mpi : D).
  Lemma hist_index_lt n a i : hist_index mpi n a = Ok i -> (i < n)%nat.
  Proof.
    unfold hist_index. destruct (dle (dofZ 0) a && dlt a mpi)%bool; cbn [assert_ bind]; [|discriminate]. destruct (dfloor _) as [z|]; [|discriminate].
    destruct (Z.ltb_spec z 0); [discriminate|]. destruct (Z.ltb_spec z (Z.of_nat n)); cbn [assert_ bind]; [|discriminate]. intros H'. injection H' as <-. lia.
  Qed.
  Lemma hist_loop_any n pts : forall prev cols sums cols' sums' dirs, length cols = n -> hist_loop fcos fsin facos mpi n prev pts cols sums = Ok (cols', sums', dirs) ->
    length cols' = n /\ length dirs = length pts /\ (forall a, In a dirs -> exists i, hist_index mpi n a = Ok i) /\
    (forall B, (forall v, In v cols -> 0 <= v <= B) -> forall v, In v cols' -> 0 <= v <= B + Z.of_nat (length pts)).
  Proof.
    induction pts as [|p pts IH]; intros prev cols sums cols' sums' dirs L E; cbn [hist_loop] in E.
    - injection E as <- <- <-. split; [exact L|]. split; [reflexivity|]. split; [intros a []|]. intros B HB v Hv. cbn [length Z.of_nat]. rewrite Z.add_0_r. auto.
    - destruct (hist_index mpi n (ox_angle fcos fsin facos mpi prev p)) as [i| | |] eqn:Ei; cbn [bind] in E; try discriminate E.
      destruct (hist_loop fcos fsin facos mpi n p pts _ _) as [[[c s] d]| | |] eqn:El; cbn [bind] in E; try discriminate E. injection E as <- <- <-.
      apply IH in El; [|now rewrite upd_length]. destruct El as (A & B & C & E'). split; [exact A|]. split; [cbn [length]; now rewrite B|]. split.
      + intros a [<-|H]; eauto.
      + intros b Hb v Hv. cbn [length]. rewrite Nat2Z.inj_succ. replace (b + Z.succ (Z.of_nat (length pts))) with ((b + 1) + Z.of_nat (length pts)) by lia.
        apply E'; [|exact Hv]. intros w Hw. apply In_nth_error in Hw. destruct Hw as [j Hj]. rewrite upd_nth in Hj by (rewrite L; eapply hist_index_lt; eauto).
        destruct (Nat.eqb j i); [destruct (nth_error cols i) eqn:N; [|discriminate Hj]; injection Hj as <-; apply nth_error_In in N; specialize (Hb _ N); lia|].
        apply nth_error_In in Hj. specialize (Hb _ Hj). lia.
  Qed.
  Lemma hist_any n pts h : hist_reset fcos fsin facos mpi n pts = Ok h ->
    h_n h = n /\ length (h_cols h) = n /\ length (h_dirs h) = length pts /\ (forall v, In v (h_cols h) -> 0 <= v <= Z.of_nat (length pts)) /\
    (forall k a, nth_error (h_dirs h) (S k) = Some a -> exists i, hist_index mpi n a = Ok i).
  Proof.
    unfold hist_reset. destruct pts as [|p pts].
    - intros E. injection E as <-. cbn [h_n h_cols h_dirs]. split; [reflexivity|]. split; [apply repeat_length|]. split; [reflexivity|]. split.
      + intros v Hv. apply repeat_spec in Hv. subst v. cbn. lia.
      + intros k a H. destruct k; discriminate H.
    - destruct (hist_loop fcos fsin facos mpi n p pts _ _) as [[[c s] d]| | |] eqn:El; cbn [bind]; try discriminate. intros E. injection E as <-.
      apply hist_loop_any in El; [|apply repeat_length]. destruct El as (A & B & C & E'). cbn [h_n h_cols h_dirs]. split; [reflexivity|]. split; [exact A|]. split; [cbn [length]; now rewrite B|].
      split.
      + intros v Hv. cbn [length]. specialize (E' 0). assert (H := E' ltac:(intros w Hw; apply repeat_spec in Hw; lia) v Hv). lia.
      + intros k a H. cbn [nth_error] in H. apply nth_error_In in H. auto.
  Qed.
  Lemma dd_kept_any n all h top : hist_reset fcos fsin facos mpi n all = Ok h -> forall pts i, (S i + length pts <= length all)%nat -> exists kept, dd_kept mpi h all top (S i) pts = Ok kept.
  Proof.
    intros E. destruct (hist_any n all h E) as (Hn & HL & HD & _ & HI). induction pts as [|p pts IH]; intros i L; [eexists; reflexivity|].
    cbn [length] in L. destruct (IH (S i) ltac:(lia)) as (rest & R'). cbn [dd_kept]. 
    destruct (nth_error (h_dirs h) (S i)) as [a|] eqn:Na; [|apply nth_error_None in Na; lia].
    destruct (HI i a Na) as (k & Ek). assert (Lk := hist_index_lt _ _ _ Ek).
    destruct (nth_error (h_cols h) k) as [v|] eqn:Nk; [|apply nth_error_None in Nk; lia].
    assert (V : hist_value mpi h all (S i) = Ok v) by (unfold hist_value; rewrite Na, Hn, Ek; cbn [bind]; rewrite Nk; reflexivity).
    rewrite V. cbn [bind]. rewrite R'. eexists. reflexivity.
  Qed.
End AnyHist.
