(** Proofs about the multi-resolution map (exact arithmetic with infinities). *)
From Coq Require Import Reals ZArith List Lia Lra Bool.
From Flocq Require Import Core.
From Verif.Base Require Import Outcome Num OrdLaws EReal.
From Verif.Model Require Import MathUtils Geometry Grid Histogram Pyramid.
From Verif.Proofs Require Import GridProofs HistProofs.
Import ListNotations.
Local Open Scope R_scope.

(** comparison with tolerance, for numbers of the unit interval *)
Lemma E_tol_unit a b : Rabs a <= 1 -> Rabs b <= 1 ->
  dmul (eq_eps : ER) (dmax (dofZ 1) (dmax (dabs (EFin a)) (dabs (EFin b)))) = EFin (1 / 10000000).
Proof.
  intros Ha Hb. unfold eq_eps. rewrite E_lit by lia. unfold dmax. cbn [dabs dlt EOps E_lt dofZ].
  assert (E : exists m, (if R_lt (Rabs a) (Rabs b) then EFin (Rabs b) else EFin (Rabs a)) = EFin m /\ m <= 1).
  { destruct (R_lt (Rabs a) (Rabs b)); eauto. }
  destruct E as (m & -> & Hm). cbn [E_lt]. replace (R_lt 1 m) with false by (symmetry; apply R_lt_false; lra).
  cbn [dmul EOps E_mul]. f_equal. lra.
Qed.
Lemma E_less_or_equal_unit a b : Rabs a <= 1 -> Rabs b <= 1 ->
  less_or_equal (EFin a) (EFin b) = true <-> a <= b + 1 / 10000000.
Proof.
  intros Ha Hb. unfold less_or_equal, are_equal, are_equal_eps. rewrite E_tol_unit by assumption.
  unfold less, dbl_epsilon. rewrite E_lit by lia. rewrite E_sub_fin, E_add_fin. cbn [dabs EOps]. rewrite orb_true_iff, E_le_fin, E_lt_fin.
  assert (P : 0 < 1 / IZR (2 ^ 52) < 1 / 10000000).
  { assert (10000000 < IZR (2 ^ 52)) by (apply IZR_lt; reflexivity). unfold Rdiv. rewrite !Rmult_1_l. split.
    - apply Rinv_0_lt_compat. lra.
    - apply Rinv_lt_contravar; [|lra]. apply Rmult_lt_0_compat; lra. }
  split; [intros [H|H]; [apply Rabs_le_inv in H; lra|lra]|]. intros H. destruct (Rle_lt_dec a b); [right; lra|left]. apply Rabs_le. lra.
Qed.

(** the coarse cell holding a fine cell *)
Lemma floor_lo s o x k : 0 < o < s -> (0 <= k)%Z -> Zfloor ((s * IZR x + o) / (s * IZR (2 ^ k))) = (x / 2 ^ k)%Z.
Proof.
  intros H Hk. assert (P : (0 < 2 ^ k)%Z) by (apply Z.pow_pos_nonneg; lia). assert (PR : 0 < IZR (2 ^ k)) by (apply IZR_lt; exact P).
  assert (SP : 0 < s * IZR (2 ^ k)) by (apply Rmult_lt_0_compat; lra).
  assert (D := Z.div_mod x (2 ^ k)). assert (M := Z.mod_pos_bound x (2 ^ k) P). set (q := (x / 2 ^ k)%Z) in *. set (r := (x mod 2 ^ k)%Z) in *.
  assert (EX : IZR x = IZR (2 ^ k) * IZR q + IZR r) by (rewrite <- mult_IZR, <- plus_IZR; f_equal; lia).
  assert (r0 : 0 <= IZR r) by (apply IZR_le; lia). assert (r1 : IZR r <= IZR (2 ^ k) - 1) by (rewrite <- minus_IZR; apply IZR_le; lia).
  apply Zfloor_imp. rewrite plus_IZR.
  assert (A0 : 0 <= s * IZR r) by (apply Rmult_le_pos; lra).
  assert (A1 : s * IZR r <= s * (IZR (2 ^ k) - 1)) by (apply Rmult_le_compat_l; lra).
  split; [apply Rmult_le_reg_r with (s * IZR (2 ^ k))|apply Rmult_lt_reg_r with (s * IZR (2 ^ k))]; try exact SP;
    unfold Rdiv; rewrite Rmult_assoc, Rinv_l, EX by lra; ring_simplify; ring_simplify in A1; nra || lra.
Qed.
Lemma floor_hi s o x k : 0 < o < s -> (0 <= k)%Z -> Zfloor ((s * IZR (x + 1) - o) / (s * IZR (2 ^ k))) = (x / 2 ^ k)%Z.
Proof.
  intros H Hk. replace (s * IZR (x + 1) - o) with (s * IZR x + (s - o)) by (rewrite plus_IZR; ring). apply floor_lo; [lra|exact Hk].
Qed.

Section M3.
  Context {C : Type}.
  Variables (proto : C) (grow : Z -> Z -> coord -> coord -> Z * Z * coord) (impact : C -> ER) (is_unknown : C -> bool).
  Hypothesis fixed : forall w h o c, grow w h o c = (w, h, o).
  Variables (s : R) (K : nat).
  Hypothesis s_big : 1 / 1000000000 < s.
  Local Notation lev := (level ER C).

  Definition scale_at (k : nat) : ER := if (k <? K)%nat then EFin (s * IZR (2 ^ Z.of_nat k)) else EInf false.
  Definition par (k : nat) (c : coord) : coord := if (k <? K)%nat then (cx c / 2 ^ Z.of_nat k, cy c / 2 ^ Z.of_nat k)%Z else (0, 0)%Z.

  Lemma par_nested k c c' : par k c = par k c' -> par (S k) c = par (S k) c'.
  Proof.
    unfold par. destruct (Nat.ltb_spec k K) as [Hk|Hk]; destruct (Nat.ltb_spec (S k) K) as [Hk'|Hk']; try lia; try reflexivity.
    intros E. injection E as E1 E2. rewrite Nat2Z.inj_succ, Z.pow_succ_r by lia. rewrite (Z.mul_comm 2), <- !Z.div_div by (try lia; apply Z.pow_nonzero; lia).
    now rewrite E1, E2.
  Qed.

  Lemma level_raster_par (l : lev) k c r cs : lv_scale l = scale_at k -> world_cell_bounds (EFin s) c = Ok r -> level_raster l r = Ok cs -> cs = [par k c].
  Proof.
    intros HS HB HR. assert (S0 : 0 < s) by lra.
    unfold world_cell_bounds, mk_rect in HB. cbn [dmul EOps E_mul dofZ] in HB.
    destruct (_ && _)%bool in HB; [|discriminate]. injection HB as <-.
    unfold level_raster in HR. apply bind_Ok_inv in HR as (ra & E & HR).
    unfold raster_rect in E. cbn [bot top left right] in E.
    unfold rect_area, vside_len, hside_len in E. cbn [bot top left right] in E. rewrite !E_sub_fin in E. cbn [dmul EOps E_mul dispinf deq E_eq dofZ] in E.
    assert (A : R_eq ((s * IZR (cy c + 1) - s * IZR (cy c)) * (s * IZR (cx c + 1) - s * IZR (cx c))) 0 = false).
    { apply R_eq_false. rewrite !plus_IZR.
      replace ((s * (IZR (cy c) + 1) - s * IZR (cy c)) * (s * (IZR (cx c) + 1) - s * IZR (cx c))) with (s * s) by ring.
      assert (0 < s * s) by (apply Rmult_lt_0_compat; lra). lra. }
    rewrite A in E. cbn [negb andb] in E. rewrite E_lit in E by lia. rewrite !E_add_fin, !E_sub_fin in E.
    set (o := 1 / 1000000000) in *. assert (O : 0 < o) by (unfold o; lra).
    apply bind_Ok_inv in E as (lb & E1 & E). apply bind_Ok_inv in E as (rt & E2 & E). injection E as <-.
    assert (Q : lb = par k c /\ rt = par k c).
    { unfold world_to_cell in E1, E2. cbn [dispinf EOps negb andb assert_ bind ptx pty fst snd] in E1, E2. rewrite HS in E1, E2.
      unfold scale_at in E1, E2. unfold par. destruct (k <? K)%nat.
      - assert (NZ : s * IZR (2 ^ Z.of_nat k) <> 0) by (apply Rmult_integral_contrapositive; split; [lra|apply IZR_neq; apply Z.pow_nonzero; lia]).
        rewrite !E_div_fin in E1, E2 by exact NZ. unfold floor_int in E1, E2. cbn [dfloor EOps] in E1, E2.
        rewrite !floor_lo in E1 by (try lra; lia). rewrite !floor_hi in E2 by (try lra; lia).
        unfold to_int in E1, E2. destruct (in_int _) in E1; [|discriminate]. destruct (in_int _) in E1; [|discriminate].
        destruct (in_int _) in E2; [|discriminate]. destruct (in_int _) in E2; [|discriminate]. cbn in E1, E2.
        injection E1 as <-. injection E2 as <-. auto.
      - cbn [ddiv EOps E_div] in E1, E2. unfold floor_int in E1, E2. cbn [dfloor EOps] in E1, E2. rewrite Zfloor_IZR in E1, E2. cbn in E1, E2.
        injection E1 as <-. injection E2 as <-. auto. }
    destruct Q as [-> ->]. cbn [raster_start r_rt r_lb] in HR. set (q := par k c) in *.
    replace ((cx q - cx q + 1) * (cy q - cy q + 1))%Z with 1%Z in HR by lia.
    rewrite raster_enumerates in HR by (try lia; replace (cx q - cx q + 1)%Z with 1%Z by lia; replace (cy q - cy q + 1)%Z with 1%Z by lia; reflexivity).
    injection HR as <-. unfold box_list. rewrite (zrange_cons (cx q)), (zrange_cons (cy q)) by lia. rewrite !zrange_nil by lia. destruct q; reflexivity.
  Qed.

  (** shapes *)
  Definition shaped (ls : list lev) : Prop := length ls = S K /\ forall k l, nth_error ls k = Some l -> lv_scale l = scale_at k.
  Definition cont (ls : list lev) : Prop := exists pc, nth_error ls (length ls - 2) = Some pc /\ (lv_w pc <= 2)%Z /\ (lv_h pc <= 2)%Z.
  Lemma cont_ensure (p : C) (ls : list lev) : cont ls -> ensure_continuous p ls = Ok ls.
  Proof.
    intros (pc & N & W & H). unfold ensure_continuous. destruct (length ls <? 2)%nat; [reflexivity|]. rewrite N.
    destruct (Z.leb_spec (lv_w pc) 2); [|lia]. destruct (Z.leb_spec (lv_h pc) 2); [|lia]. reflexivity.
  Qed.
  Lemma write_dims (l : lev) c v : lv_w (write_cell grow l c v) = lv_w l /\ lv_h (write_cell grow l c v) = lv_h l /\ lv_scale (write_cell grow l c v) = lv_scale l.
  Proof. unfold write_cell. rewrite fixed. auto. Qed.
  Lemma write_at (l : lev) c v q : lv_cells (write_cell grow l c v) q = if coord_eqb q c then v else lv_cells l q.
  Proof. unfold write_cell. destruct (grow _ _ _ _) as [[? ?] ?]. reflexivity. Qed.
  Lemma coord_eqb_spec a b : reflect (a = b) (coord_eqb a b).
  Proof.
    unfold coord_eqb, cx, cy. destruct a as [a1 a2], b as [b1 b2]. cbn [fst snd].
    destruct (Z.eqb_spec a1 b1), (Z.eqb_spec a2 b2); cbn; constructor; congruence.
  Qed.
  Definition same_dims (l l' : lev) := lv_w l' = lv_w l /\ lv_h l' = lv_h l /\ lv_scale l' = lv_scale l.
  Lemma upd_shape ls i l l' : nth_error ls i = Some l -> same_dims l l' -> shaped ls -> cont ls ->
    shaped (upd ls i (fun _ => l')) /\ cont (upd ls i (fun _ => l')).
  Proof.
    intros N (W & H & Sc) [L Sh] (pc & Np & Wp & Hp). assert (B : (i < length ls)%nat) by (apply nth_error_Some; congruence). split; [split|].
    - now rewrite upd_length.
    - intros k x. rewrite upd_nth by exact B. destruct (Nat.eqb_spec k i) as [->|]; [|apply Sh].
      rewrite N. cbn [option_map]. intros E. injection E as <-. rewrite Sc. now apply Sh.
    - unfold cont. rewrite upd_length, upd_nth by exact B. destruct (Nat.eqb_spec (length ls - 2) i) as [E|]; [|eauto].
      rewrite E in Np. rewrite N. cbn [option_map]. exists l'. split; [reflexivity|]. assert (pc = l) by congruence. subst. lia.
  Qed.

  (** the bounding invariant *)
  Definition known (x : C) := is_unknown x = false.
  Definition bounded_by (x y : C) : Prop := known x -> known y /\ less_or_equal (impact x) (impact y) = true.
  Definition inv (ls : list lev) : Prop := forall c k l l', nth_error ls k = Some l -> nth_error ls (S k) = Some l' ->
    bounded_by (lv_cells l (par k c)) (lv_cells l' (par (S k) c)).
  Definition inv_except (j : nat) (c0 : coord) (ls : list lev) : Prop := forall c k l l', nth_error ls k = Some l -> nth_error ls (S k) = Some l' ->
    (S k = j -> par k c <> par k c0) -> bounded_by (lv_cells l (par k c)) (lv_cells l' (par (S k) c)).
  Hypothesis unit_impact : forall x, exists r, impact x = EFin r /\ Rabs r <= 1.

  Lemma le_refl_impact x : less_or_equal (impact x) (impact x) = true.
  Proof. destruct (unit_impact x) as (r & -> & H). apply E_less_or_equal_unit; auto; lra. Qed.
  Lemma le_through x y v : less_or_equal (impact x) (impact y) = true -> less_or_equal (impact v) (impact y) = false -> less_or_equal (impact x) (impact v) = true.
  Proof.
    destruct (unit_impact x) as (a & -> & A), (unit_impact y) as (b & -> & B), (unit_impact v) as (d & -> & D).
    intros H1 H2. apply E_less_or_equal_unit in H1; auto. apply E_less_or_equal_unit; auto.
    destruct (Rle_lt_dec d (b + 1 / 10000000)) as [L|L]; [|lra]. apply E_less_or_equal_unit in L; auto. congruence.
  Qed.

  Lemma upd_same_inv ls i (l : lev) : nth_error ls i = Some l -> forall k, nth_error (upd ls i (fun _ => l)) k = nth_error ls k.
  Proof.
    intros N k. assert (B : (i < length ls)%nat) by (apply nth_error_Some; congruence). rewrite upd_nth by exact B.
    destruct (Nat.eqb_spec k i) as [->|]; [now rewrite N|reflexivity].
  Qed.

  Lemma raise_levels_inv fuel : forall ls id c v r ls' prev, shaped ls -> cont ls -> (1 <= id)%nat -> known v ->
    world_cell_bounds (EFin s) c = Ok r -> inv_except id c ls ->
    nth_error ls (id - 1) = Some prev -> lv_cells prev (par (id - 1) c) = v ->
    raise_levels proto grow impact is_unknown fuel ls id r v = Ok ls' ->
    shaped ls' /\ cont ls' /\ inv ls' /\ (forall k, (k < id)%nat -> nth_error ls' k = nth_error ls k).
  Proof.
    induction fuel as [|fuel IH]; intros ls id c v r ls' prev Sh Co Hid Kv HB HI Np Vp E; cbn [raise_levels] in E;
      rewrite cont_ensure in E by exact Co; cbn [bind] in E.
    - destruct (nth_error ls id) eqn:N; [discriminate|]. injection E as <-. split; [exact Sh|]. split; [exact Co|]. split; [|auto].
      intros c' k l l' A B. apply (HI c' k l l' A B). intros <-. congruence.
    - destruct (nth_error ls id) as [l|] eqn:N.
      2: { injection E as <-. split; [exact Sh|]. split; [exact Co|]. split; [|auto].
           intros c' k l l' A B. apply (HI c' k l l' A B). intros <-. congruence. }
      apply bind_Ok_inv in E as (cs & EC & E). apply (level_raster_par l id c r cs) in EC; [|now apply Sh|exact HB]. subst cs.
      cbn [raise_cells] in E. set (q := par id c) in *. assert (Bi : (id < length ls)%nat) by (apply nth_error_Some; congruence).
      destruct (negb (is_unknown (lv_cells l q)) && less_or_equal (impact v) (impact (lv_cells l q)))%bool eqn:T.
      + injection E as <-. apply andb_true_iff in T as [T1 T2]. apply negb_true_iff in T1.
        assert (SD : same_dims l l) by (repeat split). destruct (upd_shape ls id l l N SD Sh Co) as [Sh' Co'].
        split; [exact Sh'|]. split; [exact Co'|]. split; [|intros k Hk; now apply upd_same_inv].
        intros c' k a b A B. rewrite (upd_same_inv _ _ _ N) in A, B.
        destruct (Nat.eq_dec (S k) id) as [Ei|Ne]; [subst id|apply (HI c' k a b A B); easy].
        destruct (coord_eqb_spec (par k c') (par k c)) as [Ep|Ep]; [|apply (HI c' k a b A B); auto].
        replace (S k - 1)%nat with k in * by lia. assert (a = prev) by congruence. assert (b = l) by congruence. subst a b.
        rewrite Ep, Vp. rewrite (par_nested _ _ _ Ep). intros _. split; assumption.
      + set (l1 := write_cell grow l q v) in *. set (ls1 := upd ls id (fun _ => l1)) in *.
        destruct (upd_shape ls id l l1 N (write_dims l q v) Sh Co) as [Sh' Co'].
        assert (N1 : forall k, nth_error ls1 k = if Nat.eqb k id then Some l1 else nth_error ls k).
        { intros k. unfold ls1. rewrite upd_nth by exact Bi. destruct (Nat.eqb_spec k id); [now rewrite N|reflexivity]. }
        apply (IH ls1 (S id) c v r ls' l1) in E; auto; try lia.
        * destruct E as (A1 & A2 & A3 & A4). split; [exact A1|]. split; [exact A2|]. split; [exact A3|].
          intros k Hk. rewrite A4 by lia. rewrite N1. destruct (Nat.eqb_spec k id); [lia|reflexivity].
        * intros c' k a b A B Hex. rewrite N1 in A, B.
          destruct (Nat.eqb_spec (S k) id) as [Ek|Ek].
          -- destruct (Nat.eqb_spec k id) as [|_]; [lia|]. injection B as <-.
             subst id. replace (S k - 1)%nat with k in * by lia. assert (a = prev) by congruence. subst a.
             unfold l1. rewrite write_at. destruct (coord_eqb_spec (par k c') (par k c)) as [Ep|Ep].
             ++ rewrite (par_nested _ _ _ Ep). fold q. destruct (coord_eqb_spec q q) as [_|X]; [|now elim X]. rewrite Ep, Vp. intros _. split; [exact Kv|apply le_refl_impact].
             ++ assert (O := HI c' k prev l A N (fun _ => Ep)). destruct (coord_eqb_spec (par (S k) c') q) as [Eq|Eq]; [|exact O].
                rewrite Eq in O. intros Kx. destruct (O Kx) as [Ky Ly]. split; [exact Kv|].
                apply le_through with (lv_cells l q); [exact Ly|]. apply andb_false_iff in T as [T|T]; [|exact T].
                unfold known in Ky. rewrite Ky in T. discriminate.
          -- destruct (Nat.eqb_spec k id) as [->|Ek'].
             ++ injection A as <-. unfold l1. rewrite write_at. destruct (coord_eqb_spec (par id c') q) as [Eq|Eq]; [now elim Hex|].
                apply (HI c' id l b N B). lia.
             ++ apply (HI c' k a b A B). congruence.
        * replace (S id - 1)%nat with id by lia. rewrite N1, Nat.eqb_refl. reflexivity.
        * replace (S id - 1)%nat with id by lia. unfold l1. rewrite write_at. fold q. destruct (coord_eqb_spec q q) as [_|X]; [reflexivity|now elim X].
  Qed.

  (** writes *)
  Definition py_ok (p : pyramid ER C) : Prop := shaped (py_levels p) /\ cont (py_levels p) /\ inv (py_levels p) /\ py_active p = O.
  Hypothesis K_pos : (0 < K)%nat.
  Lemma par_0 c : par 0 c = c.
  Proof. unfold par. destruct (Nat.ltb_spec 0 K); [|lia]. cbn. rewrite !Z.div_1_r. now destruct c. Qed.
  Lemma m3_write_ok fuel p c f p' : py_ok p -> (forall l, nth_error (py_levels p) 0 = Some l -> known (f (lv_cells l c))) ->
    m3_write proto grow impact is_unknown fuel p c f = Ok p' ->
    py_ok p' /\ exists l l', nth_error (py_levels p) 0 = Some l /\ nth_error (py_levels p') 0 = Some l' /\
      forall q, lv_cells l' q = if coord_eqb q c then f (lv_cells l c) else lv_cells l q.
  Proof.
    intros (Sh & Co & I & A0) Kf E. unfold m3_write, py_write in E. rewrite A0 in E. destruct (nth_error (py_levels p) 0) as [l|] eqn:N; [|discriminate].
    set (v := f (lv_cells l c)) in *. cbn [Nat.eqb assert_ bind py_active py_levels] in E. rewrite upd_nth in E by (apply nth_error_Some; congruence).
    cbn [Nat.eqb] in E. rewrite N in E. cbn [option_map] in E. apply bind_Ok_inv in E as (r & HB & E). apply bind_Ok_inv in E as (ls & ER & E). injection E as <-.
    rewrite write_at in ER. replace (coord_eqb c c) with true in ER by (destruct (coord_eqb_spec c c); congruence).
    rewrite (proj2 (proj2 (write_dims l c v))) in HB.
    assert (HS : lv_scale l = EFin s).
    { rewrite (proj2 Sh 0%nat l N). unfold scale_at. destruct (Nat.ltb_spec 0 K); [|lia]. change (2 ^ Z.of_nat 0)%Z with 1%Z. f_equal. lra. }
    rewrite HS in HB. set (l1 := write_cell grow l c v) in *.
    assert (B0 : (0 < length (py_levels p))%nat) by (apply nth_error_Some; congruence).
    set (ls1 := upd (py_levels p) 0 (fun _ => l1)) in *.
    assert (N1 : forall k, nth_error ls1 k = if Nat.eqb k 0 then Some l1 else nth_error (py_levels p) k).
    { intros k. unfold ls1. rewrite upd_nth by exact B0. destruct (Nat.eqb_spec k 0); [now rewrite N|reflexivity]. }
    destruct (upd_shape _ 0 l l1 N (write_dims l c v) Sh Co) as [Sh1 Co1].
    apply (raise_levels_inv fuel ls1 1 c v r ls l1) in ER; auto.
    - destruct ER as (A & B & D & F). split; [split; [exact A|]; split; [exact B|]; split; [exact D|exact eq_refl]|]. exists l, l1. split; [reflexivity|]. split; [cbn [py_levels]; rewrite F by lia; apply N1|].
      intros q. apply write_at.
    - apply Kf. reflexivity.
    - intros c' k a b A B Hex. rewrite N1 in A, B. cbn [Nat.eqb] in B. destruct (Nat.eqb_spec k 0) as [->|Hk]; [|now apply (I c' k a b A B)].
      injection A as <-. unfold l1. rewrite write_at. specialize (Hex eq_refl). rewrite !par_0 in *. destruct (coord_eqb_spec c' c); [congruence|].
      assert (X := I c' 0%nat l b N B). rewrite par_0 in X. exact X.
    - apply N1.
    - replace (1 - 1)%nat with 0%nat by lia. rewrite par_0. unfold l1. rewrite write_at. destruct (coord_eqb_spec c c) as [_|X]; [reflexivity|now elim X].
  Qed.

  (** the bound at every level *)
  Lemma inv_chain ls c : shaped ls -> inv ls -> forall k l0 l, nth_error ls 0 = Some l0 -> nth_error ls k = Some l -> known (lv_cells l0 c) ->
    known (lv_cells l (par k c)) /\
    exists a b, impact (lv_cells l0 c) = EFin a /\ impact (lv_cells l (par k c)) = EFin b /\ a <= b + INR k * (1 / 10000000).
  Proof.
    intros Sh I. induction k as [|k IH]; intros l0 l N0 N K0.
    - assert (l = l0) by congruence. subst. rewrite par_0. split; [exact K0|]. destruct (unit_impact (lv_cells l0 c)) as (a & E & _).
      exists a, a. repeat split; auto. cbn. lra.
    - assert (B : (S k < length ls)%nat) by (apply nth_error_Some; congruence).
      destruct (nth_error ls k) as [lk|] eqn:Nk; [|apply nth_error_None in Nk; lia].
      destruct (IH l0 lk N0 eq_refl K0) as (Kk & a & b & Ea & Eb & H). destruct (I c k lk l Nk N Kk) as [Kl L].
      split; [exact Kl|]. destruct (unit_impact (lv_cells l (par (S k) c))) as (d & Ed & Hd). exists a, d. repeat split; auto.
      destruct (unit_impact (lv_cells lk (par k c))) as (b' & Eb' & Hb). rewrite Eb in Eb'. injection Eb' as <-.
      rewrite Eb, Ed in L. apply E_less_or_equal_unit in L; auto. rewrite S_INR. lra.
  Qed.
End M3.
