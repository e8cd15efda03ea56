(** C87: the self-check of a multi-resolution map. *)
From Coq Require Import Reals ZArith List Bool Lia Lra.
From Verif.Base Require Import Outcome Num OrdLaws EReal.
From Verif.Model Require Import MathUtils Geometry Grid Cells Pyramid SelfCheck.
From Verif.Spec Require Import PyramidSpec SelfCheckSpec.
From Verif.Proofs Require Import PyramidProofs PyramidShape PyramidRun PyramidBound SelfCheckProofs.
From Verif.Props Require Import PyramidProps.
Import ListNotations.
Local Open Scope Z_scope.

(** Unbounded maps of any growth, after any use (observations through any level, changes of the level, scopes): if the check
    answers, the answer is right.  Impacts between -1 and 1, the scale above the rasterisation's offset of 1e-9. *)
Theorem C87_self_check_is_right :
  forall (C : Type) (proto : C) grow (impact : C -> ER) is_unknown (s lowest : R), (1 / 1000000000 < s)%R -> (lowest <= -2)%R ->
  (forall x, exists r, impact x = EFin r /\ (Rabs r <= 1)%R) ->
  (forall w h o c w' h' o', 1 <= w -> 1 <= h -> grow w h o c = (w', h', o') -> 1 <= w' /\ 1 <= h') ->
  forall w h p0 p b q, 1 <= w -> 1 <= h -> pyramid_new proto (EInf false) w h (EFin s) = Ok p0 -> uses proto grow impact is_unknown p0 p ->
  validate proto (EInf false) (EFin lowest) read_unbounded impact is_unknown p = Ok (b, q) ->
  (b = true <-> consistent proto impact is_unknown q).
Proof.
  intros C proto grow impact is_unknown s lowest Hs Hl U GP w h p0 p b q Hw Hh E0 Us E. assert (S0 : (0 < s)%R) by lra.
  destruct (pyramid_new_good proto s w h p0 Hw Hh E0) as (K0 & G0 & _). destruct (uses_good proto grow impact is_unknown s GP p0 p Us K0 G0) as (K & HK & G).
  exact (validate_spec proto impact is_unknown s lowest Hs Hl U K p b q G E).
Qed.
Print Assumptions C87_self_check_is_right.

(** Unbounded access, maps of any size up to 2^30 x 2^30 that do not grow: after any writes inside the map the check answers *)
Theorem C87_self_check_answers :
  forall (C : Type) (proto : C) grow (impact : C -> ER) is_unknown (s lowest : R), (1 / 1000000000 < s)%R -> (lowest <= -2)%R ->
  (forall x, exists r, impact x = EFin r /\ (Rabs r <= 1)%R) -> (forall w h o c, grow w h o c = (w, h, o)) ->
  forall w h, 1 <= w <= 2 ^ 30 -> 1 <= h <= 2 ^ 30 ->
  exists p0 finest, pyramid_new proto (EInf false) w h (EFin s) = Ok p0 /\ nth_error (py_levels p0) 0 = Some finest /\
    forall hist, (forall c f, In (c, f) hist -> level_has finest c) ->
    exists p b, m3_run proto grow impact is_unknown 64 p0 hist = Ok p /\
      validate proto (EInf false) (EFin lowest) read_unbounded impact is_unknown p = Ok (b, p) /\ (b = true <-> consistent proto impact is_unknown p).
Proof.
  intros C proto grow impact is_unknown s lowest Hs Hl U Fx w h Hw Hh. assert (S0 : (0 < s)%R) by lra. assert (W1 : 1 <= w) by lia. assert (H1 : 1 <= h) by lia.
  destruct (new_total proto s w h Hw Hh) as [p0 E0]. destruct (new_inside proto s w h p0 W1 H1 E0) as (K & HK & Sh & Co & A0 & KB & _).
  destruct (new_exact proto s w h p0 W1 H1 E0) as (a & b & ls & Ha & _ & _ & Hb & _ & _ & Ep & Ln & Lv).
  exists p0, (new_level proto w h (EFin s)). split; [exact E0|]. split; [rewrite Ep; reflexivity|]. intros hist Hin.
  assert (InInt : forall c, level_has (new_level proto w h (EFin s)) c -> in_int (cx c) = true /\ in_int (cy c) = true).
  { intros c [A B]. cbn [new_level lv_w lv_h lv_origin default_origin cx cy fst snd] in A, B. rewrite Z.quot_div_nonneg in A, B by lia.
    assert (0 <= w / 2 <= w) by (split; [apply Z.div_pos; lia|apply Z.div_le_upper_bound; lia]). assert (0 <= h / 2 <= h) by (split; [apply Z.div_pos; lia|apply Z.div_le_upper_bound; lia]).
    change (2 ^ 30) with 1073741824 in *. unfold in_int, int_min, int_max. change (2 ^ 31) with 2147483648. split; apply andb_true_iff; split; apply Z.leb_le; unfold cx, cy in *; lia. }
  destruct (m3_run_total proto grow impact is_unknown s Hs Fx K 64 hist HK) with (p := p0) as (p & E & Dp & Ap); auto; [lia|intros c f I; apply InInt; eapply Hin; eauto|].
  assert (Sh' := shaped_dims s K _ _ Dp Sh). assert (Co' := cont_dims _ _ Dp Co).
  assert (Dim : forall j l, nth_error (py_levels p) j = Some l -> exists l0, nth_error (py_levels p0) j = Some l0 /\ lv_w l = lv_w l0 /\ lv_h l = lv_h l0 /\ lv_origin l = lv_origin l0).
  { intros j l N. assert (X := map_nth_error (fun l => (lv_w l, lv_h l, lv_origin l, lv_scale l)) _ _ N). change (nth_error (dims (py_levels p)) j = Some (lv_w l, lv_h l, lv_origin l, lv_scale l)) in X. rewrite Dp in X. unfold dims in X. rewrite nth_error_map in X.
    destruct (nth_error (py_levels p0) j) as [l0|]; [|discriminate]. cbn in X. injection X as X1 X2 X3 _. exists l0. auto. }
  assert (LK : K = S (length ls)). { destruct Sh as [L _]. rewrite Ep in L. cbn [py_levels length] in L. rewrite app_length in L. cbn [length] in L. lia. }
  destruct (py_levels p) as [|fin rest] eqn:EL; [destruct Sh' as [L _]; discriminate|].
  assert (F : lv_scale fin = EFin s). { destruct Sh' as [_ X]. rewrite (X 0%nat fin eq_refl). unfold scale_at. destruct (Nat.ltb_spec 0 K); [|lia]. change (2 ^ Z.of_nat 0) with 1. f_equal. lra. }
  destruct (Dim 0%nat fin eq_refl) as (f0 & N0 & D1 & D2 & _). rewrite Ep in N0. cbn in N0. injection N0 as <-. cbn [new_level lv_w lv_h] in D1, D2.
  destruct (check_levels_total proto impact is_unknown s lowest Hs U K fin F) with (ls := rest) (i := 1%nat) as [v Ev]; [lia|lia| |].
  { intros j l N. destruct Sh' as [_ X]. split; [exact (X (S j) l N)|]. intros Hj. destruct (Dim (S j) l N) as (l0 & Nl & Q1 & Q2 & Q3). rewrite Ep in Nl. cbn [py_levels nth_error] in Nl.
    rewrite nth_error_app1 in Nl by lia. destruct (Lv j l0 Nl) as (V1 & V2 & _ & V3 & _). rewrite V1, V2 in V3. intros c [Hx Hy]. rewrite Q1, Q3, V1, V3 in Hx. rewrite Q2, Q3, V2, V3 in Hy. cbn [default_origin cx cy fst snd] in Hx, Hy.
    destruct (side_fits a (S j) (fst c)) as [X1 X2]; [lia|lia|exact Hx|]. destruct (side_fits b (S j) (snd c)) as [Y1 Y2]; [lia|lia|exact Hy|]. auto. }
  assert (EV : validate proto (EInf false) (EFin lowest) read_unbounded impact is_unknown p = Ok (v, p)).
  { unfold validate. rewrite EL. cbn [nth_error]. rewrite (cont_ensure proto _ Co'). cbn [bind tl]. rewrite Ev. cbn [bind]. rewrite <- EL. now destruct p. }
  exists p, v. split; [exact E|]. split; [exact EV|].
  assert (G : good s K p).
  { split; [split; [lia|rewrite EL; exact Sh']|]. split; [|lia]. intros l Il. rewrite EL in Il. apply In_nth_error in Il as (j & N). destruct (Dim j l N) as (l0 & Nl & Q1 & Q2 & _). rewrite Q1, Q2. rewrite Ep in Nl. cbn [py_levels] in Nl.
    destruct j as [|j]; cbn [nth_error] in Nl; [injection Nl as <-; cbn; lia|]. destruct (Nat.ltb_spec j (length ls)) as [B|B].
    - rewrite nth_error_app1 in Nl by exact B. destruct (Lv j l0 Nl) as (V1 & V2 & _). rewrite V1, V2. unfold side. lia.
    - rewrite nth_error_app2 in Nl by exact B. destruct (j - length ls)%nat as [|m]; cbn [nth_error] in Nl; [injection Nl as <-; cbn; lia|destruct m; discriminate]. }
  exact (validate_spec proto impact is_unknown s lowest Hs Hl U K p v p G EV).
Qed.
Print Assumptions C87_self_check_answers.

(** in particular a new map passes *)
Theorem C87_new_map_passes :
  forall (C : Type) (proto : C) (impact : C -> ER) is_unknown (s lowest : R), (1 / 1000000000 < s)%R -> (lowest <= -2)%R ->
  (forall x, exists r, impact x = EFin r /\ (Rabs r <= 1)%R) -> is_unknown proto = true ->
  forall w h, 1 <= w <= 2 ^ 30 -> 1 <= h <= 2 ^ 30 ->
  exists p, pyramid_new proto (EInf false) w h (EFin s) = Ok p /\ validate proto (EInf false) (EFin lowest) read_unbounded impact is_unknown p = Ok (true, p).
Proof.
  intros C proto impact is_unknown s lowest Hs Hl U PU w h Hw Hh.
  destruct (C87_self_check_answers C proto (fun w h o _ => (w, h, o)) impact is_unknown s lowest Hs Hl U (fun _ _ _ _ => eq_refl) w h Hw Hh) as (p0 & fin & E0 & N0 & H).
  destruct (H []) as (p & b & E & V & D); [intros c f []|]. cbn in E. injection E as <-. exists p0. split; [exact E0|]. rewrite V. f_equal. f_equal. apply D.
  assert (W1 : 1 <= w) by lia. assert (H1 : 1 <= h) by lia. destruct (new_exact proto s w h p0 W1 H1 E0) as (a & b' & ls & _ & _ & _ & _ & _ & _ & Ep & _ & Lv).
  assert (AP : forall j l q, nth_error (py_levels p0) j = Some l -> lv_cells l q = proto).
  { intros j l q N. rewrite Ep in N. cbn [py_levels] in N. destruct j as [|j]; cbn [nth_error] in N; [injection N as <-; reflexivity|]. destruct (Nat.ltb_spec j (length ls)) as [B|B].
    - rewrite nth_error_app1 in N by exact B. now apply (Lv j l N).
    - rewrite nth_error_app2 in N by exact B. destruct (j - length ls)%nat as [|m]; cbn [nth_error] in N; [injection N as <-; reflexivity|destruct m; discriminate]. }
  intros f0 j l c Nf Hj Nl Hc. split.
  - intros f _ X. rewrite (AP 0%nat f0 f Nf) in X. congruence.
  - intros _. rewrite (AP j l c Nl). destruct (U proto) as (r & Er & _). exists r, r. split; [exact Er|]. split; [exact Er|]. cbn [INR]. lra.
Qed.
Print Assumptions C87_new_map_passes.

(** Bounded plain maps (type "plain") whose width is no power of two: the check of the new map already ends the program, and so does
    the check after any writes.  (The first coarse cell that is checked reaches beyond the finest map, whose operator[] asserts.) *)
Theorem C87_bounded_map_ends_the_program_refuted :
  forall (C : Type) (proto : C) grow (impact : C -> ER) is_unknown (s : R) lowest, (1 / 1000000000 < s)%R -> (forall w h o c, grow w h o c = (w, h, o)) ->
  forall w h, 3 <= w <= 2 ^ 30 -> (forall k, 0 <= k -> w <> 2 ^ k) -> 1 <= h <= 2 ^ 30 ->
  exists p0 finest, pyramid_new proto (EInf false) w h (EFin s) = Ok p0 /\ nth_error (py_levels p0) 0 = Some finest /\
    forall hist, (forall c f, In (c, f) hist -> level_has finest c) ->
    exists p, m3_run proto grow impact is_unknown 64 p0 hist = Ok p /\
      validate proto (EInf false) lowest read_bounded impact is_unknown p = Abort.
Proof.
  intros C proto grow impact is_unknown s lowest Hs Fx w h Hw NP Hh. assert (S0 : (0 < s)%R) by lra. assert (W1 : 1 <= w) by lia. assert (H1 : 1 <= h) by lia.
  destruct (new_total proto s w h ltac:(lia) Hh) as [p0 E0]. destruct (new_inside proto s w h p0 W1 H1 E0) as (K & HK & Sh & Co & A0 & KB & _).
  destruct (new_exact proto s w h p0 W1 H1 E0) as (a & b & ls & Ha & Wa & Wl & Hb & _ & _ & Ep & Ln & Lv).
  exists p0, (new_level proto w h (EFin s)). split; [exact E0|]. split; [rewrite Ep; reflexivity|]. intros hist Hin.
  assert (InInt : forall c, level_has (new_level proto w h (EFin s)) c -> in_int (cx c) = true /\ in_int (cy c) = true).
  { intros c [A B]. cbn [new_level lv_w lv_h lv_origin default_origin cx cy fst snd] in A, B. rewrite Z.quot_div_nonneg in A, B by lia.
    assert (0 <= w / 2 <= w) by (split; [apply Z.div_pos; lia|apply Z.div_le_upper_bound; lia]). assert (0 <= h / 2 <= h) by (split; [apply Z.div_pos; lia|apply Z.div_le_upper_bound; lia]).
    change (2 ^ 30) with 1073741824 in *. unfold in_int, int_min, int_max. change (2 ^ 31) with 2147483648. split; apply andb_true_iff; split; apply Z.leb_le; unfold cx, cy in *; lia. }
  destruct (m3_run_total proto grow impact is_unknown s Hs Fx K 64 hist HK) with (p := p0) as (p & E & Dp & Ap); auto; [lia|intros c f I; apply InInt; eapply Hin; eauto|].
  assert (Sh' := shaped_dims s K _ _ Dp Sh). assert (Co' := cont_dims _ _ Dp Co).
  assert (Dim : forall j l, nth_error (py_levels p) j = Some l -> exists l0, nth_error (py_levels p0) j = Some l0 /\ lv_w l = lv_w l0 /\ lv_h l = lv_h l0 /\ lv_origin l = lv_origin l0).
  { intros j l N. assert (X := map_nth_error (fun l => (lv_w l, lv_h l, lv_origin l, lv_scale l)) _ _ N). change (nth_error (dims (py_levels p)) j = Some (lv_w l, lv_h l, lv_origin l, lv_scale l)) in X. rewrite Dp in X. unfold dims in X. rewrite nth_error_map in X.
    destruct (nth_error (py_levels p0) j) as [l0|]; [|discriminate]. cbn in X. injection X as X1 X2 X3 _. exists l0. auto. }
  assert (LK : K = S (length ls)). { destruct Sh as [L _]. rewrite Ep in L. cbn [py_levels length] in L. rewrite app_length in L. cbn [length] in L. lia. }
  destruct (py_levels p) as [|fin rest] eqn:EL; [destruct Sh' as [L _]; discriminate|].
  assert (F : lv_scale fin = EFin s). { destruct Sh' as [_ X]. rewrite (X 0%nat fin eq_refl). unfold scale_at. destruct (Nat.ltb_spec 0 K); [|lia]. change (2 ^ Z.of_nat 0) with 1. f_equal. lra. }
  destruct (Dim 0%nat fin eq_refl) as (f0 & N0 & D1 & D2 & _). rewrite Ep in N0. cbn in N0. injection N0 as <-. cbn [new_level lv_w lv_h] in D1, D2.
  exists p. split; [exact E|]. unfold validate. rewrite EL. cbn [nth_error]. rewrite (cont_ensure proto _ Co'). cbn [bind tl].
  assert (A2 : 2 <= a). { destruct (Z_lt_le_dec a 2) as [X|X]; [|exact X]. assert (a = 0 \/ a = 1) as [->| ->] by lia; [change (2 ^ 0) with 1 in Wa|change (2 ^ 1) with 2 in Wa]; lia. }
  assert (WA : w < 2 ^ a) by (assert (X := NP a ltac:(lia)); lia).
  destruct rest as [|l1 rest]; [destruct Sh' as [L _]; cbn [length] in L; lia|]. destruct (Dim 1%nat l1 eq_refl) as (l0 & Nl & Q1 & Q2 & Q3). rewrite Ep in Nl. change (nth_error (ls ++ [new_level proto 1 1 (EInf false)]) 0 = Some l0) in Nl.
  assert (LL : (1 <= length ls)%nat) by lia. rewrite nth_error_app1 in Nl by lia. destruct (Lv 0%nat l0 Nl) as (V1 & V2 & _ & V3 & _). rewrite V1, V2 in V3. rewrite V1 in Q1. rewrite V2 in Q2. rewrite V3 in Q3.
  assert (Fi : fits 1 l1).
  { intros c [Hx Hy]. rewrite Q1, Q3 in Hx. rewrite Q2, Q3 in Hy. cbn [default_origin cx cy fst snd] in Hx, Hy.
    destruct (side_fits a 1 (fst c)) as [X1 X2]; [lia|lia|exact Hx|]. destruct (side_fits b 1 (snd c)) as [Y1 Y2]; [lia|lia|exact Hy|]. auto. }
  assert (SW : side (2 ^ a) 1 = 2 ^ (a - 1)).
  { unfold side. change (2 ^ Z.of_nat 1) with 2. replace (2 ^ a) with (2 ^ (a - 1) * 2) by (rewrite Z.mul_comm, <- Z.pow_succ_r by lia; f_equal; lia). rewrite Z.div_mul by lia. apply Z.max_r. change 2 with (2 ^ 1) at 1. apply Z.pow_le_mono_r; lia. }
  assert (SH : 2 <= side (2 ^ b) 1) by (unfold side; lia). rewrite SW in *. assert (PW : 2 ^ (a - 1) = 2 ^ (a - 2) * 2) by (rewrite Z.mul_comm, <- Z.pow_succ_r by lia; f_equal; lia). assert (PP : 1 <= 2 ^ (a - 2)) by (apply (Z.pow_le_mono_r 2 0); lia).
  set (c0 := internal2external (lv_origin l1) (0, 0)).
  assert (MC : exists t, map_cells l1 = c0 :: t).
  { unfold map_cells. rewrite Q1, Q2. destruct (Z.to_nat (2 ^ (a - 1))) as [|nw] eqn:EW; [lia|]. destruct (Z.to_nat (side (2 ^ b) 1)) as [|nh] eqn:EH; [lia|]. cbn [seq flat_map map app]. eexists. reflexivity. }
  destruct MC as (t & MC). cbn [check_levels]. rewrite MC. cbn [check_cells]. unfold check_cell.
  assert (Hc0 : level_has l1 c0).
  { apply map_cells_in. rewrite MC. now left. }
  destruct (area_total s Hs K 1 fin l1 c0 F) as (r & cs & EB & ER & Hd); [lia|lia|destruct Sh' as [_ X]; exact (X 1%nat l1 eq_refl)|intros _; exact Fi|exact Hc0|].
  rewrite EB. cbn [bind]. unfold estimate_max_spe_impact. rewrite ER. cbn [bind]. destruct Hd as (t' & ->); [lia|]. cbn [max_known]. unfold read_bounded at 1.
  destruct (Dim 0%nat fin eq_refl) as (f0 & N0 & D1' & D2' & D3). rewrite Ep in N0. cbn in N0. injection N0 as <-. cbn [new_level lv_origin] in D3.
  assert (OUT : has_internal_cell (lv_w fin) (lv_h fin) (external2internal (lv_origin fin) (2 ^ Z.of_nat 1 * cx c0, 2 ^ Z.of_nat 1 * cy c0)) = false).
  { unfold has_internal_cell, external2internal, coord_add, c0, internal2external, coord_sub. rewrite Q3, D3. cbn [default_origin cx cy fst snd]. change (2 ^ Z.of_nat 1) with 2.
    rewrite !Z.quot_div_nonneg by lia. rewrite PW, Z.div_mul by lia. assert (w / 2 < 2 ^ (a - 1)) by (apply Z.div_lt_upper_bound; [lia|]; replace (2 * 2 ^ (a - 1)) with (2 ^ a) by (rewrite <- Z.pow_succ_r by lia; f_equal; lia); exact WA).
    destruct (Z.leb_spec 0 (2 * (0 - 2 ^ (a - 2)) + w / 2)); [lia|reflexivity]. }
  rewrite OUT. reflexivity.
Qed.
Print Assumptions C87_bounded_map_ends_the_program_refuted.

(** A map that lost its cells on loading (C86: levels of 0 x 0 cells) passes: the check cannot notice the loss. *)
Theorem C87_map_without_cells_passes :
  forall (D C : Type) (ops : DOps D) (proto : C) (infinity lowest : D) read impact is_unknown (p : pyramid D C), py_levels p <> [] ->
  (forall l, In l (py_levels p) -> lv_w l = 0 /\ lv_h l = 0) -> validate proto infinity lowest read impact is_unknown p = Ok (true, p).
Proof.
  intros D C ops proto infinity lowest read impact is_unknown p NE Z0. unfold validate. destruct (py_levels p) as [|fin rest] eqn:EL; [easy|]. cbn [nth_error].
  assert (EC : ensure_continuous proto (fin :: rest) = Ok (fin :: rest)).
  { unfold ensure_continuous. destruct (_ <? 2)%nat; [reflexivity|]. destruct (nth_error (fin :: rest) (length (fin :: rest) - 2)) as [pc|] eqn:N.
    - destruct (Z0 pc (nth_error_In _ _ N)) as [-> ->]. reflexivity.
    - apply nth_error_None in N. cbn [length] in N. lia. }
  rewrite EC. cbn [bind tl]. assert (CL : check_levels proto infinity lowest read impact is_unknown fin rest = Ok true).
  { assert (Z1 : forall l, In l rest -> lv_w l = 0 /\ lv_h l = 0) by (intros l I; apply Z0; now right). clear - Z1. induction rest as [|l rest IH]; [reflexivity|]. cbn [check_levels]. destruct (Z1 l (or_introl eq_refl)) as [W H].
    unfold map_cells. rewrite W. cbn [Z.to_nat seq flat_map check_cells bind]. apply IH. intros l' I. apply Z1. now right. }
  rewrite CL. cbn [bind]. rewrite <- EL. now destruct p.
Qed.
Print Assumptions C87_map_without_cells_passes.

(** *** binary64 with the default (affine) cells and the occupancy impact *)
Definition f_lowest : F64 := dofZ (- (2 ^ 1024 - 2 ^ 971)).
Definition checked (o : outcome (pyramid F64 (gcell F64))) : outcome bool :=
  bind o (fun p => bind (validate affine_new f_inf f_lowest read_unbounded c_prob c_unknown p) (fun r => Ok (fst r))).
(** observations of an unbounded map that grows (C32), or that differ by less than a tolerance (C31), make maps the check rejects;
    after other observations the map passes *)
Theorem C87_observed_maps_fail_the_check :
  checked (map_after plain_growth 2 2 [((0, 0), seen (dlit 9 10)); ((5, 5), seen (dlit 1 10))]) = Ok false /\
  checked (map_after no_growth 4 4 [((0, 0), seen (dlit 1 2)); ((-1, -1), seen (dlit 50000009 100000000)); ((-2, -1), seen (dlit 50000018 100000000))]) = Ok false /\
  checked (map_after no_growth 5 3 [((0, 0), seen (dlit 9 10)); ((-1, -1), seen (dlit 1 10)); ((2, 0), seen (dlit 6 10))]) = Ok true.
Proof. split; [|split]; vm_compute; reflexivity. Qed.
Print Assumptions C87_observed_maps_fail_the_check.

(** *** cases of the hypotheses: three-valued cells, a 5 x 3 map with an observed cell *)
Definition sc_impact (x : option bool) : ER := match x with None => EFin (1 / 2) | Some b => EFin (if b then 1 else 0) end.
Definition sc_unknown (x : option bool) : bool := match x with None => true | _ => false end.
Example C87_case :
  exists p b, bind (pyramid_new None (EInf false) 5 3 (EFin (1 / 20))) (fun p0 => m3_run None no_growth sc_impact sc_unknown 64 p0 [((2, -1), fun _ => Some true)]) = Ok p /\
    validate None (EInf false) (EFin (-2)) read_unbounded sc_impact sc_unknown p = Ok (b, p) /\ validate None (EInf false) (EFin (-2)) read_bounded sc_impact sc_unknown p = Abort.
Proof.
  assert (U : forall x, exists r, sc_impact x = EFin r /\ (Rabs r <= 1)%R) by (intros [[]|]; eexists; (split; [reflexivity|]); apply Rabs_le; lra).
  destruct (C87_self_check_answers (option bool) None no_growth sc_impact sc_unknown (1 / 20) (-2)) with (w := 5) (h := 3) as (p0 & fin & E0 & N0 & H); [lra|lra|exact U|reflexivity|lia|lia|].
  destruct (C87_bounded_map_ends_the_program_refuted (option bool) None no_growth sc_impact sc_unknown (1 / 20) (EFin (-2))) with (w := 5) (h := 3) as (p0' & fin' & E0' & N0' & H'); [lra|reflexivity|lia| |lia|].
  { intros k Hk. destruct (Z_le_gt_dec k 2) as [X|X]; [assert (k = 0 \/ k = 1 \/ k = 2) as [->|[->| ->]] by lia; cbn; lia|]. assert (2 ^ 3 <= 2 ^ k) by (apply Z.pow_le_mono_r; lia). change (2 ^ 3) with 8 in *. lia. }
  rewrite E0 in E0'. injection E0' as <-. rewrite N0 in N0'. injection N0' as <-.
  assert (HH : level_has fin (2, -1)).
  { revert E0 N0. intros E0 N0. destruct (new_exact None (1 / 20) 5 3 p0 ltac:(lia) ltac:(lia) E0) as (a & b & ls & _ & _ & _ & _ & _ & _ & -> & _). cbn in N0. injection N0 as <-. unfold level_has. cbn. lia. }
  assert (I : forall c f, In (c, f) [((2, -1), fun _ : option bool => Some true)] -> level_has fin c) by (intros c f [X|[]]; injection X as <- _; exact HH).
  destruct (H _ I) as (p & b & E & V & _). destruct (H' _ I) as (p' & E' & V'). rewrite E in E'. injection E' as <-. exists p, b. rewrite E0. cbn [bind]. auto.
Qed.
