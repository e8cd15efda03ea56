(** Bounds between the levels of an M3RSM map. *)
From Coq Require Import Reals ZArith List Lia Lra Bool.
From Flocq Require Import Core.
From Verif.Base Require Import Outcome Num OrdLaws EReal.
From Verif.Model Require Import MathUtils Geometry Grid Histogram Pyramid.
From Verif.Spec Require Import PyramidSpec.
From Verif.Proofs Require Import GridProofs HistProofs PyramidProofs PyramidShape PyramidRun.
Import ListNotations.
Local Open Scope Z_scope.

(** the covering cell *)
Lemma covers_par s K i j f c : (0 < s)%R -> (i < j)%nat -> (j <= K)%nat -> covers (scale_at s K i) (scale_at s K j) f c ->
  c = par K j (cx f * 2 ^ Z.of_nat i, cy f * 2 ^ Z.of_nat i).
Proof.
  intros Hs Hij Hj. rewrite !scale_at_dbl. destruct (Nat.ltb_spec i K) as [_|]; [|lia]. unfold par. cbn [cx cy fst snd].
  destruct (Nat.ltb_spec j K) as [HjK|HjK]; [|intros ->; reflexivity].
  cbn [covers]. intros (A & B & A' & B'). set (d := (j - i)%nat). assert (P : 0 < 2 ^ Z.of_nat d) by (apply Z.pow_pos_nonneg; lia).
  assert (Pi : 0 < 2 ^ Z.of_nat i) by (apply Z.pow_pos_nonneg; lia).
  assert (Ej : 2 ^ Z.of_nat j = 2 ^ Z.of_nat i * 2 ^ Z.of_nat d) by (rewrite <- Z.pow_add_r by lia; f_equal; lia).
  assert (DJ : dbl s j = (dbl s i * IZR (2 ^ Z.of_nat d))%R) by (unfold dbl; rewrite Ej, mult_IZR; ring).
  assert (D0 : (0 < dbl s i)%R) by (unfold dbl; apply Rmult_lt_0_compat; [exact Hs|now apply IZR_lt]).
  rewrite DJ in *.
  assert (G : forall X x, (dbl s i * IZR (2 ^ Z.of_nat d) * IZR X <= dbl s i * IZR x)%R -> (dbl s i * (IZR x + 1) <= dbl s i * IZR (2 ^ Z.of_nat d) * (IZR X + 1))%R ->
     X = x * 2 ^ Z.of_nat i / 2 ^ Z.of_nat j).
  { intros X x H1 H2. rewrite Ej, (Z.mul_comm x), Z.div_mul_cancel_l by lia. rewrite Rmult_assoc in H1, H2. apply Rmult_le_reg_l in H1; [|exact D0]. apply Rmult_le_reg_l in H2; [|exact D0].
    rewrite <- (plus_IZR X 1), <- (plus_IZR x 1), <- mult_IZR in *. apply le_IZR in H1. apply le_IZR in H2. apply Z.div_unique with (x - 2 ^ Z.of_nat d * X); lia. }
  destruct c as [c1 c2]. cbn [cx cy fst snd] in *. f_equal; apply G; assumption.
Qed.
Lemma par_self K i f : (i < K)%nat -> par K i (cx f * 2 ^ Z.of_nat i, cy f * 2 ^ Z.of_nat i) = f.
Proof.
  intros H. unfold par. destruct (Nat.ltb_spec i K); [|lia]. cbn [cx cy fst snd]. rewrite !Z.div_mul by (apply Z.pow_nonzero; lia). now destruct f.
Qed.
Lemma par_covers s K j c : (0 < s)%R -> (1 <= K)%nat -> (j <= K)%nat -> covers (EFin s) (scale_at s K j) c (par K j c).
Proof.
  intros Hs HK Hj. rewrite scale_at_dbl. unfold par. destruct (Nat.ltb_spec j K) as [H|H]; cbn [covers]; [|reflexivity]. cbn [cx cy fst snd].
  assert (P : 0 < 2 ^ Z.of_nat j) by (apply Z.pow_pos_nonneg; lia). unfold dbl.
  assert (G : forall x, (s * IZR (2 ^ Z.of_nat j) * IZR (x / 2 ^ Z.of_nat j) <= s * IZR x)%R /\ (s * (IZR x + 1) <= s * IZR (2 ^ Z.of_nat j) * (IZR (x / 2 ^ Z.of_nat j) + 1))%R).
  { intros x. assert (D := Z.div_mod x (2 ^ Z.of_nat j)). assert (M := Z.mod_pos_bound x _ P). rewrite !Rmult_assoc. rewrite <- (plus_IZR (x / _) 1), <- (plus_IZR x 1), <- !mult_IZR.
    split; apply Rmult_le_compat_l; try lra; apply IZR_le; lia. }
  destruct (G (cx c)), (G (cy c)). repeat split; assumption.
Qed.

Lemma new_levels_len {C} (proto : C) fuel : forall w h (sc : ER) ls, new_levels proto fuel w h sc = Ok ls -> (length ls <= fuel)%nat.
Proof.
  induction fuel as [|fuel IH]; intros w h sc ls; cbn [new_levels]; destruct (_ || _); try discriminate; try (intros E; injection E as <-; cbn; lia).
  intros E. apply bind_Ok_inv in E as (l & E & E'). injection E' as <-. apply IH in E. cbn [length]. lia.
Qed.
Lemma ensure_len {C} (proto : C) (ls ls' : list (level ER C)) : ensure_continuous proto ls = Ok ls' -> (length ls' <= length ls + 40)%nat.
Proof.
  unfold ensure_continuous. destruct (_ <? 2)%nat; [intros E; injection E as <-; lia|]. destruct (nth_error _ _); [|discriminate]. destruct (_ && _); [intros E; injection E as <-; lia|].
  intros E. apply bind_Ok_inv in E as (w & _ & E). apply bind_Ok_inv in E as (h & _ & E). apply bind_Ok_inv in E as (new & En & E). apply new_levels_len in En.
  match type of E with Ok ?x = _ => assert (X : ls' = x) by congruence; rewrite X end.
  rewrite !app_length, firstn_length, skipn_length. lia.
Qed.

Section Bound.
  Context {C : Type}.
  Variables (proto : C) (grow : Z -> Z -> coord -> coord -> Z * Z * coord) (impact : C -> ER) (is_unknown : C -> bool).
  Variable s : R.
  Hypothesis s_big : (1 / 1000000000 < s)%R.
  Hypothesis unit_impact : forall x, exists r, impact x = EFin r /\ (Rabs r <= 1)%R.
  Hypothesis proto_unknown : is_unknown proto = true.
  Local Notation lev := (level ER C).
  Local Notation known x := (is_unknown x = false).
  Definition keeps_known (h : list (coord * (C -> C))) : Prop := forall c f, In (c, f) h -> forall x, known (f x).
  Local Notation sinv := (inv impact is_unknown).

  Lemma s_pos : (0 < s)%R.
  Proof. lra. Qed.

  (** *** fixed-size maps *)
  Section Fixed.
    Hypothesis fixed : forall w h o c, grow w h o c = (w, h, o).
    Lemma fixed_pos w h o c w' h' o' : 1 <= w -> 1 <= h -> grow w h o c = (w', h', o') -> 1 <= w' /\ 1 <= h'.
    Proof. rewrite fixed. intros A B E. injection E as <- <- <-. auto. Qed.

    Lemma new_py_ok w h p : 1 <= w -> 1 <= h -> pyramid_new proto (EInf false) w h (EFin s) = Ok p ->
      exists K, (0 < K)%nat /\ py_ok impact is_unknown s K p.
    Proof.
      intros Hw Hh E. unfold pyramid_new in E. apply bind_Ok_inv in E as (ls & E1 & E). injection E as <-.
      assert (L0 : levels_of s 1 [new_level proto w h (EFin s); new_level proto 1 1 (EInf false)]).
      { split; [lia|]. split; [reflexivity|]. intros [|[|k]] l; cbn [nth_error]; intros N; [| |destruct k; discriminate]; injection N as <-; cbn.
        - unfold scale_at. cbn. f_equal. lra.
        - reflexivity. }
      assert (S0 : sized [new_level proto w h (EFin s); new_level proto 1 1 (EInf false)]).
      { intros l [<-|[<-|[]]]; cbn; lia. }
      destruct (ensure_sized proto s 1 _ ls L0 S0 E1) as (new & El & L & Sz & Co & Hn). exists (1 + length new)%nat. split; [lia|].
      split; [apply L|]. split; [exact Co|]. split; [|reflexivity].
      intros c k l l' N N'. assert (P : forall q, lv_cells l q = proto).
      { apply nth_error_In in N. rewrite El in N. apply in_mid in N as [[<-|[<-|[]]]|N]; try reflexivity. now apply Hn. }
      rewrite P. unfold bounded_by, PyramidProofs.known. rewrite proto_unknown. discriminate.
    Qed.
    Lemma m3_run_ok fuel K h : (0 < K)%nat -> keeps_known h -> forall p p', py_ok impact is_unknown s K p -> m3_run proto grow impact is_unknown fuel p h = Ok p' -> py_ok impact is_unknown s K p'.
    Proof.
      intros HK. induction h as [|(c, f) h IH]; intros Kh p p' G E; cbn [m3_run] in E; [now injection E as <-|].
      apply bind_Ok_inv in E as (q & E1 & E). apply (m3_write_ok proto grow impact is_unknown fixed s K s_big unit_impact HK) in E1 as [G1 _]; auto.
      - apply (IH (fun c f I => Kh c f (or_intror I)) q p' G1 E).
      - intros l _. apply (Kh c f (or_introl eq_refl)).
    Qed.
    Lemma chain_from K ls c : shaped s K ls -> sinv K ls -> forall d i li l, nth_error ls i = Some li -> nth_error ls (i + d) = Some l -> known (lv_cells li (par K i c)) ->
      known (lv_cells l (par K (i + d) c)) /\ impact_le d (impact (lv_cells li (par K i c))) (impact (lv_cells l (par K (i + d) c))).
    Proof.
      intros Sh I. induction d as [|d IH]; intros i li l N0 N K0.
      - rewrite Nat.add_0_r in *. assert (l = li) by congruence. subst. split; [exact K0|]. destruct (unit_impact (lv_cells li (par K i c))) as (a & E & _). exists a, a. repeat split; auto. cbn. lra.
      - rewrite Nat.add_succ_r in *. assert (B : (S (i + d) < length ls)%nat) by (apply nth_error_Some; congruence).
        destruct (nth_error ls (i + d)) as [lk|] eqn:Nk; [|apply nth_error_None in Nk; lia].
        destruct (IH i li lk N0 Nk K0) as (Kk & a & b & Ea & Eb & H). destruct (I c (i + d)%nat lk l Nk N Kk) as [Kl Ll].
        split; [exact Kl|]. destruct (unit_impact (lv_cells l (par K (S (i + d)) c))) as (d0 & Ed & Hd). exists a, d0. repeat split; auto.
        destruct (unit_impact (lv_cells lk (par K (i + d) c))) as (b' & Eb' & Hb). rewrite Eb in Eb'. injection Eb' as <-.
        rewrite Eb, Ed in Ll. apply E_less_or_equal_unit in Ll; auto. rewrite S_INR. lra.
    Qed.
    Theorem fixed_bound w h p0 hist fuel p i j li lj f c : 1 <= w -> 1 <= h -> pyramid_new proto (EInf false) w h (EFin s) = Ok p0 -> keeps_known hist ->
      m3_run proto grow impact is_unknown fuel p0 hist = Ok p -> (i < j)%nat -> nth_error (py_levels p) i = Some li -> nth_error (py_levels p) j = Some lj ->
      covers (lv_scale li) (lv_scale lj) f c -> known (lv_cells li f) -> known (lv_cells lj c) /\ impact_le (j - i) (impact (lv_cells li f)) (impact (lv_cells lj c)).
    Proof.
      intros Hw Hh E0 Kh E Hij Ni Nj Cv Kf. destruct (new_py_ok w h p0 Hw Hh E0) as (K & HK & G0). assert (G := m3_run_ok fuel K hist HK Kh p0 p G0 E).
      destruct G as (Sh & _ & I & _). assert (Hj : (j <= K)%nat) by (assert (j < length (py_levels p))%nat by (apply nth_error_Some; congruence); destruct Sh as [Len _]; lia).
      rewrite (proj2 Sh _ _ Ni), (proj2 Sh _ _ Nj) in Cv. apply covers_par in Cv; auto using s_pos. subst c.
      set (c0 := (cx f * 2 ^ Z.of_nat i, cy f * 2 ^ Z.of_nat i)) in *. assert (Pf : par K i c0 = f) by (apply par_self; lia).
      assert (X := chain_from K (py_levels p) c0 Sh I (j - i)%nat i li lj Ni). replace (i + (j - i))%nat with j in X by lia. rewrite Pf in X. auto.
    Qed.

    (** sizes do not change *)
    Definition dims (ls : list lev) := map (fun l => (lv_w l, lv_h l, lv_origin l, lv_scale l)) ls.
    Lemma upd_dims ls i l l' : nth_error ls i = Some l -> (lv_w l', lv_h l', lv_origin l', lv_scale l') = (lv_w l, lv_h l, lv_origin l, lv_scale l) -> dims (upd ls i (fun _ => l')) = dims ls.
    Proof.
      intros N E. unfold dims, upd. rewrite N. rewrite map_app. cbn [map]. rewrite E.
      apply nth_error_split in N as (a & b & -> & La). rewrite <- La. rewrite firstn_app, Nat.sub_diag, firstn_all, firstn_O, app_nil_r. rewrite skipn_app.
      rewrite skipn_all2 by lia. replace (S (length a) - length a)%nat with 1%nat by lia. rewrite !map_app. reflexivity.
    Qed.
    Lemma write_dims4 (l : lev) c v : (lv_w (write_cell grow l c v), lv_h (write_cell grow l c v), lv_origin (write_cell grow l c v), lv_scale (write_cell grow l c v)) = (lv_w l, lv_h l, lv_origin l, lv_scale l).
    Proof. unfold write_cell. rewrite fixed. reflexivity. Qed.
    Lemma cont_dims (ls ls' : list lev) : dims ls' = dims ls -> cont ls -> cont ls'.
    Proof.
      intros E (pc & N & W & H). assert (L : length ls' = length ls) by (rewrite <- (map_length (fun l => (lv_w l, lv_h l, lv_origin l, lv_scale l)) ls'); fold (dims ls'); rewrite E; apply map_length).
      assert (X := map_nth_error (fun l => (lv_w l, lv_h l, lv_origin l, lv_scale l)) _ _ N). fold (dims ls) in X. rewrite <- E in X. unfold dims in X.
      rewrite nth_error_map in X. unfold cont. rewrite L. destruct (nth_error ls' (length ls - 2)) as [pc'|]; [|discriminate]. cbn in X. injection X as A B _ _. exists pc'. split; [reflexivity|]. lia.
    Qed.
    Lemma shaped_dims K (ls ls' : list lev) : dims ls' = dims ls -> shaped s K ls -> shaped s K ls'.
    Proof.
      intros E [L Sh]. assert (L' : length ls' = length ls) by (rewrite <- (map_length (fun l => (lv_w l, lv_h l, lv_origin l, lv_scale l)) ls'); fold (dims ls'); rewrite E; apply map_length).
      split; [lia|]. intros k l N. assert (X := map_nth_error (fun l => (lv_w l, lv_h l, lv_origin l, lv_scale l)) _ _ N). fold (dims ls') in X. rewrite E in X. unfold dims in X.
      rewrite nth_error_map in X. destruct (nth_error ls k) as [l0|] eqn:N0; [|discriminate]. cbn in X. injection X as _ _ _ X. rewrite <- X. now apply Sh.
    Qed.
    (** writes inside of the map succeed *)
    Lemma bounds_total c : exists r, world_cell_bounds (EFin s) c = Ok r.
    Proof.
      unfold world_cell_bounds, mk_rect. cbn [dmul EOps E_mul dofZ].
      assert (G : forall x, dle (EFin (s * IZR x)) (EFin (s * IZR (x + 1))) = true).
      { intros x. apply E_le_fin. rewrite plus_IZR. lra. }
      rewrite !G. cbn. eauto.
    Qed.
    Lemma int_div x k : in_int x = true -> in_int (x / 2 ^ Z.of_nat k) = true.
    Proof.
      unfold in_int, int_min, int_max. intros H. apply andb_true_iff in H as [A B]. apply Z.leb_le in A. apply Z.leb_le in B. assert (P : 0 < 2 ^ Z.of_nat k) by (apply Z.pow_pos_nonneg; lia).
      apply andb_true_iff; split; apply Z.leb_le; [apply Z.div_le_lower_bound; nia|]. destruct (Z_lt_le_dec x 0).
      - assert (x / 2 ^ Z.of_nat k < 0) by (apply Z.div_lt_upper_bound; lia). lia.
      - assert (x / 2 ^ Z.of_nat k <= x) by (apply Z.div_le_upper_bound; nia). lia.
    Qed.
    Lemma level_raster_total K (l : lev) k c r : lv_scale l = scale_at s K k -> in_int (cx c) = true -> in_int (cy c) = true -> world_cell_bounds (EFin s) c = Ok r ->
      level_raster l r = Ok [par K k c].
    Proof.
      intros HS Ix Iy HB. enough (exists cs, level_raster l r = Ok cs) as [cs E] by (rewrite E; f_equal; now apply (level_raster_par s K s_big l k c r)).
      assert (S0 := s_pos). unfold world_cell_bounds, mk_rect in HB. cbn [dmul EOps E_mul dofZ] in HB. destruct (_ && _)%bool in HB; [|discriminate]. injection HB as <-.
      unfold level_raster, raster_rect. cbn [bot top left right]. unfold rect_area, vside_len, hside_len. cbn [bot top left right]. rewrite !E_sub_fin. cbn [dmul EOps E_mul dispinf deq E_eq dofZ].
      assert (A : R_eq ((s * IZR (cy c + 1) - s * IZR (cy c)) * (s * IZR (cx c + 1) - s * IZR (cx c))) 0 = false).
      { apply R_eq_false. rewrite !plus_IZR.
        replace ((s * (IZR (cy c) + 1) - s * IZR (cy c)) * (s * (IZR (cx c) + 1) - s * IZR (cx c)))%R with (s * s)%R by ring.
        assert (0 < s * s)%R by (apply Rmult_lt_0_compat; lra). lra. }
      rewrite A. cbn [negb andb]. rewrite E_lit by lia. rewrite !E_add_fin, !E_sub_fin.
      set (o := (1 / 1000000000)%R) in *. assert (O : (0 < o)%R) by (unfold o; lra).
      assert (W1 : world_to_cell (lv_scale l) (EFin (s * IZR (cx c) + o), EFin (s * IZR (cy c) + o)) = Ok (par K k c)).
      { unfold world_to_cell. cbn [dispinf EOps negb andb assert_ bind ptx pty fst snd]. rewrite HS. unfold scale_at, par. destruct (k <? K)%nat.
        - assert (NZ : (s * IZR (2 ^ Z.of_nat k) <> 0)%R) by (apply Rmult_integral_contrapositive; split; [lra|apply IZR_neq; apply Z.pow_nonzero; lia]).
          rewrite !E_div_fin by exact NZ. unfold floor_int. cbn [dfloor EOps]. rewrite !floor_lo by (try lra; lia). unfold to_int. rewrite !int_div by assumption. reflexivity.
        - cbn [ddiv EOps E_div]. unfold floor_int. cbn [dfloor EOps]. rewrite Zfloor_IZR. reflexivity. }
      assert (W2 : world_to_cell (lv_scale l) (EFin (s * IZR (cx c + 1) - o), EFin (s * IZR (cy c + 1) - o)) = Ok (par K k c)).
      { unfold world_to_cell. cbn [dispinf EOps negb andb assert_ bind ptx pty fst snd]. rewrite HS. unfold scale_at, par. destruct (k <? K)%nat.
        - assert (NZ : (s * IZR (2 ^ Z.of_nat k) <> 0)%R) by (apply Rmult_integral_contrapositive; split; [lra|apply IZR_neq; apply Z.pow_nonzero; lia]).
          rewrite !E_div_fin by exact NZ. unfold floor_int. cbn [dfloor EOps]. rewrite !floor_hi by (try lra; lia). unfold to_int. rewrite !int_div by assumption. reflexivity.
        - cbn [ddiv EOps E_div]. unfold floor_int. cbn [dfloor EOps]. rewrite Zfloor_IZR. reflexivity. }
      rewrite W1, W2. cbn [bind raster_start r_rt r_lb]. set (q := par K k c) in *. replace ((cx q - cx q + 1) * (cy q - cy q + 1))%Z with 1%Z by lia.
      rewrite raster_enumerates by (try lia; replace (cx q - cx q + 1)%Z with 1%Z by lia; replace (cy q - cy q + 1)%Z with 1%Z by lia; reflexivity). eauto.
    Qed.
    Lemma raise_total K c r v : in_int (cx c) = true -> in_int (cy c) = true -> world_cell_bounds (EFin s) c = Ok r -> forall fuel ls id, shaped s K ls -> cont ls -> (K < fuel + id)%nat ->
      exists ls', raise_levels proto grow impact is_unknown fuel ls id r v = Ok ls' /\ dims ls' = dims ls.
    Proof.
      intros Ix Iy HB. induction fuel as [|fuel IH]; intros ls id Sh Co Hf; cbn [raise_levels]; rewrite cont_ensure by exact Co; cbn [bind].
      - destruct (nth_error ls id) eqn:N; [assert (id < length ls)%nat by (apply nth_error_Some; congruence); destruct Sh as [L _]; lia|eauto].
      - destruct (nth_error ls id) as [l|] eqn:N; [|eauto]. rewrite (level_raster_total K l id c r (proj2 Sh _ _ N) Ix Iy HB). cbn [bind raise_cells].
        destruct (negb (is_unknown (lv_cells l (par K id c))) && less_or_equal (impact v) (impact (lv_cells l (par K id c)))).
        + eexists. split; [reflexivity|]. apply (upd_dims ls id l l N eq_refl).
        + assert (DD := upd_dims ls id l (write_cell grow l (par K id c) v) N (write_dims4 _ _ _)).
          destruct (IH (upd ls id (fun _ => write_cell grow l (par K id c) v)) (S id)) as (ls' & E & D').
          * exact (shaped_dims K _ _ DD Sh).
          * exact (cont_dims _ _ DD Co).
          * lia.
          * exists ls'. split; [exact E|congruence].
    Qed.
    Lemma m3_write_total K fuel p c f : (0 < K)%nat -> shaped s K (py_levels p) -> cont (py_levels p) -> py_active p = O -> (K <= fuel)%nat -> in_int (cx c) = true -> in_int (cy c) = true ->
      exists p', m3_write proto grow impact is_unknown fuel p c f = Ok p' /\ dims (py_levels p') = dims (py_levels p) /\ py_active p' = O.
    Proof.
      intros HK Sh Co A0 Hf Ix Iy. unfold m3_write, py_write. rewrite A0. destruct (nth_error (py_levels p) 0) as [l|] eqn:N.
      2: { apply nth_error_None in N. destruct Sh as [L _]. lia. }
      cbn [bind Nat.eqb assert_ py_active py_levels]. set (l1 := write_cell grow l c (f (lv_cells l c))).
      rewrite upd_nth by (apply nth_error_Some; congruence). cbn [Nat.eqb]. rewrite N. cbn [option_map].
      assert (DD := upd_dims (py_levels p) 0 l l1 N (write_dims4 _ _ _)).
      assert (HS : lv_scale l1 = EFin s).
      { unfold l1. rewrite write_scale. rewrite (proj2 Sh 0%nat l N). unfold scale_at. destruct (Nat.ltb_spec 0 K); [|lia]. change (2 ^ Z.of_nat 0)%Z with 1%Z. f_equal. lra. }
      rewrite HS. destruct (bounds_total c) as [r HB]. rewrite HB. cbn [bind].
      destruct (raise_total K c r (lv_cells l1 c) Ix Iy HB fuel (upd (py_levels p) 0 (fun _ => l1)) 1 (shaped_dims K _ _ DD Sh) (cont_dims _ _ DD Co)) as (ls' & E & D'); [lia|].
      rewrite E. cbn [bind]. eexists. split; [reflexivity|]. split; [cbn [py_levels]; congruence|reflexivity].
    Qed.
    Lemma m3_run_total K fuel h : (0 < K)%nat -> (K <= fuel)%nat -> (forall c f, In (c, f) h -> in_int (cx c) = true /\ in_int (cy c) = true) -> forall p,
      shaped s K (py_levels p) -> cont (py_levels p) -> py_active p = O ->
      exists p', m3_run proto grow impact is_unknown fuel p h = Ok p' /\ dims (py_levels p') = dims (py_levels p) /\ py_active p' = O.
    Proof.
      intros HK Hf. induction h as [|(c, f) h IH]; intros HI p Sh Co A0; cbn [m3_run]; [eauto|].
      destruct (HI c f (or_introl eq_refl)) as [Ix Iy]. destruct (m3_write_total K fuel p c f HK Sh Co A0 Hf Ix Iy) as (q & E & D1 & A1). rewrite E. cbn [bind].
      destruct (IH (fun c f I => HI c f (or_intror I)) q (shaped_dims K _ _ D1 Sh) (cont_dims _ _ D1 Co) A1) as (p' & E' & D' & A'). exists p'. split; [exact E'|]. split; congruence.
    Qed.

    (** every cell of the finest level has its covering cells in the coarser ones *)
    Lemma par_inside w a k x m : 0 <= a -> 1 <= w -> w <= 2 ^ a -> 0 <= x + Z.quot w 2 < w -> side (2 ^ a) k = m -> 0 <= x / 2 ^ Z.of_nat k + Z.quot m 2 < m.
    Proof.
      intros Ha Hw Wa Hx <-. rewrite Z.quot_div_nonneg in * by (unfold side; lia). unfold side. assert (P : 0 < 2 ^ Z.of_nat k) by (apply Z.pow_pos_nonneg; lia).
      assert (W2 : 2 * (w / 2) <= w <= 2 * (w / 2) + 1) by (assert (D := Z.div_mod w 2); assert (M := Z.mod_pos_bound w 2); lia).
      destruct (Z_le_gt_dec a (Z.of_nat k)) as [H|H].
      - assert (2 ^ a <= 2 ^ Z.of_nat k) by (apply Z.pow_le_mono_r; lia). assert (2 ^ a / 2 ^ Z.of_nat k <= 1) by (apply Z.div_le_upper_bound; lia). rewrite Z.max_l by lia. change (2 / 2) with 1.
        assert (-1 <= x / 2 ^ Z.of_nat k) by (apply Z.div_le_lower_bound; lia). assert (x / 2 ^ Z.of_nat k < 1) by (apply Z.div_lt_upper_bound; lia). lia.
      - rewrite <- Z.pow_sub_r by lia. assert (EP : 2 ^ a = 2 ^ Z.of_nat k * 2 ^ (a - Z.of_nat k)) by (rewrite <- Z.pow_add_r by lia; f_equal; lia).
        assert (E2 : 2 ^ (a - Z.of_nat k) = 2 * 2 ^ (a - Z.of_nat k - 1)) by (rewrite <- Z.pow_succ_r by lia; f_equal; lia).
        set (m := 2 ^ (a - Z.of_nat k - 1)) in *. assert (1 <= m) by (unfold m; apply (Z.pow_le_mono_r 2 0); lia). rewrite Z.max_r by lia. rewrite E2, Z.mul_comm, Z.div_mul by lia.
        assert (- m <= x / 2 ^ Z.of_nat k) by (apply Z.div_le_lower_bound; nia). assert (x / 2 ^ Z.of_nat k < m) by (apply Z.div_lt_upper_bound; nia). lia.
    Qed.
    Lemma new_inside w h p : 1 <= w -> 1 <= h -> pyramid_new proto (EInf false) w h (EFin s) = Ok p -> exists K, (0 < K)%nat /\ shaped s K (py_levels p) /\ cont (py_levels p) /\ py_active p = O /\
      (K <= 41)%nat /\
      forall l0 k l c, nth_error (py_levels p) 0 = Some l0 -> nth_error (py_levels p) k = Some l -> level_has l0 c -> level_has l (par K k c).
    Proof.
      intros Hw Hh E. unfold pyramid_new in E. apply bind_Ok_inv in E as (ls & E1 & E). injection E as <-.
      assert (L0 : levels_of s 1 [new_level proto w h (EFin s); new_level proto 1 1 (EInf false)]).
      { split; [lia|]. split; [reflexivity|]. intros [|[|k]] l; cbn [nth_error]; intros N; [| |destruct k; discriminate]; injection N as <-; cbn.
        - unfold scale_at. cbn. f_equal. lra.
        - reflexivity. }
      assert (S0 : sized [new_level proto w h (EFin s); new_level proto 1 1 (EInf false)]).
      { intros l [<-|[<-|[]]]; cbn; lia. }
      destruct (ensure_levels proto s 1 _ ls L0 E1 S0) as (new & El & L & Co & Hn). exists (1 + length new)%nat. split; [lia|]. split; [apply L|]. split; [exact Co|]. split; [reflexivity|]. split.
      - apply ensure_len in E1. cbn [length] in E1. destruct L as (_ & Len & _). lia.
      - cbn [py_levels]. intros l0 k l c N0 N H0. rewrite El in N0, N. cbn [firstn skipn app nth_error] in N0, N. injection N0 as <-. unfold level_has in *. cbn [new_level lv_w lv_h lv_origin default_origin cx cy fst snd] in H0.
        unfold par. destruct k as [|k]; cbn [nth_error] in N.
        + injection N as <-. cbn. rewrite !Z.div_1_r. exact H0.
        + destruct (Nat.ltb_spec k (length new)) as [B|B].
          * rewrite nth_error_app1 in N by exact B. destruct (Nat.ltb_spec (S k) (1 + length new)); [|lia].
            destruct (Hn k l N) as (pc & a & b & Np & Ha & Hb & Wa & Hb' & Ew & Eh & Eo & _). cbn [nth_error] in Np. injection Np as <-. cbn [new_level lv_w lv_h] in Wa, Hb'.
            rewrite Eo. cbn [default_origin cx cy fst snd]. destruct H0 as [H1 H2]. split; [apply (par_inside w a); auto|apply (par_inside h b); auto].
          * rewrite nth_error_app2 in N by exact B. destruct (k - length new)%nat as [|m] eqn:Em; cbn [nth_error] in N; [|destruct m; discriminate]. injection N as <-.
            destruct (Nat.ltb_spec (S k) (1 + length new)); [lia|]. cbn. lia.
    Qed.
    Lemma new_total w h : 1 <= w <= 2 ^ 30 -> 1 <= h <= 2 ^ 30 -> exists p, pyramid_new proto (EInf false) w h (EFin s) = Ok p.
    Proof.
      intros Hw Hh. unfold pyramid_new.
      destruct (ensure_total proto s 1 [new_level proto w h (EFin s); new_level proto 1 1 (EInf false)]) as [ls E].
      - split; [lia|]. split; [reflexivity|]. intros [|[|k]] l; cbn [nth_error]; intros N; [| |destruct k; discriminate]; injection N as <-; cbn.
        + unfold scale_at. cbn. f_equal. lra.
        + reflexivity.
      - intros l [<-|[<-|[]]]; cbn [new_level lv_w lv_h]; lia.
      - rewrite E. cbn [bind]. eauto.
    Qed.
  End Fixed.

  (** *** growing maps: the coarsest level still bounds everything *)
  Hypothesis grow_pos : forall w h o c w' h' o', 1 <= w -> 1 <= h -> grow w h o c = (w', h', o') -> 1 <= w' /\ 1 <= h'.
  Definition under (n : nat) (x top : C) : Prop := known top /\ impact_le n (impact x) (impact top).
  Definition cinv_ex (K id : nat) (v : C) (ls : list lev) : Prop := forall k l top q, (k < K)%nat -> nth_error ls k = Some l -> nth_error ls K = Some top -> known (lv_cells l q) ->
    under (K - k) (lv_cells l q) (lv_cells top (0, 0)) \/ (lv_cells l q = v /\ (k < id)%nat).
  Definition cinv (K : nat) (ls : list lev) : Prop := forall k l top q, (k < K)%nat -> nth_error ls k = Some l -> nth_error ls K = Some top -> known (lv_cells l q) ->
    under (K - k) (lv_cells l q) (lv_cells top (0, 0)).
  Lemma under_more n m x y : (n <= m)%nat -> under n x y -> under m x y.
  Proof. intros H (A & a & b & Ea & Eb & L). split; [exact A|]. exists a, b. repeat split; auto. apply le_INR in H. lra. Qed.
  Lemma under_refl n x : known x -> under n x x.
  Proof. intros H. split; [exact H|]. destruct (unit_impact x) as (a & E & _). exists a, a. repeat split; auto. assert (0 <= INR n)%R by apply pos_INR. lra. Qed.
  Lemma under_trans n m x y z : under n x y -> under m y z -> under (n + m) x z.
  Proof. intros (_ & a & b & Ea & Eb & L) (H & b' & d & Eb' & Ed & L'). split; [exact H|]. rewrite Eb in Eb'. injection Eb' as <-. exists a, d. repeat split; auto. rewrite plus_INR. lra. Qed.
  Lemma le_under x y : known y -> less_or_equal (impact x) (impact y) = true -> under 1 x y.
  Proof.
    intros H L. split; [exact H|]. destruct (unit_impact x) as (a & Ea & Ha), (unit_impact y) as (b & Eb & Hb). rewrite Ea, Eb in L. apply E_less_or_equal_unit in L; auto. exists a, b. repeat split; auto. cbn. lra.
  Qed.
  Lemma raised_under n x top v : known v -> under n x top -> (1 <= n)%nat -> negb (is_unknown top) && less_or_equal (impact v) (impact top) = false -> under n x v.
  Proof.
    intros Kv (Kt & a & b & Ea & Eb & L) Hn T. split; [exact Kv|]. rewrite Kt in T. cbn in T.
    destruct (unit_impact v) as (d & Ed & Hd), (unit_impact top) as (b' & Eb' & Hb). rewrite Eb in Eb'. injection Eb' as <-. rewrite Ed, Eb in T.
    exists a, d. repeat split; auto. destruct (Rle_lt_dec d (b + 1 / 10000000)) as [X|X]; [|lra]. apply E_less_or_equal_unit in X; auto. congruence.
  Qed.

  Lemma ensure_cinv K id v ls ls' : levels_of s K ls -> sized ls -> cinv_ex K id v ls -> (id <= K)%nat -> ensure_continuous proto ls = Ok ls' ->
    exists K', (K <= K')%nat /\ levels_of s K' ls' /\ sized ls' /\ cont ls' /\ cinv_ex K' id v ls' /\ (forall k, (k < K)%nat -> nth_error ls' k = nth_error ls k).
  Proof.
    intros L Sz I Hid E. destruct (ensure_sized proto s K ls ls' L Sz E) as (new & El & L' & Sz' & Co & Hn). exists (K + length new)%nat. split; [lia|]. split; [exact L'|]. split; [exact Sz'|]. split; [exact Co|].
    assert (HL : (K <= length ls)%nat) by (destruct L as (_ & Len & _); lia). split.
    - intros k l top q Hk N Nt Kq. rewrite El, nth_mid in N by exact HL. rewrite El, nth_mid in Nt by exact HL.
      destruct (Nat.ltb_spec (K + length new) K); [lia|]. destruct (Nat.ltb_spec (K + length new) (K + length new)); [lia|]. replace (K + length new - length new)%nat with K in Nt by lia.
      destruct (Nat.ltb_spec k K) as [Hk'|Hk'].
      + destruct (I k l top q Hk' N Nt Kq) as [U|U]; [|now right]. left. apply (under_more (K - k)); [lia|exact U].
      + destruct (Nat.ltb_spec k (K + length new)); [|lia]. rewrite (Hn l (nth_error_In _ _ N)) in Kq. congruence.
    - intros k Hk. rewrite El, nth_mid by exact HL. destruct (Nat.ltb_spec k K); [reflexivity|lia].
  Qed.
  Lemma raise_cinv fuel : forall K ls id c v r ls', levels_of s K ls -> sized ls -> (1 <= id)%nat -> known v -> world_cell_bounds (EFin s) c = Ok r ->
    (id <= K)%nat /\ cinv_ex K id v ls \/ id = S K /\ cont ls /\ cinv K ls ->
    raise_levels proto grow impact is_unknown fuel ls id r v = Ok ls' -> exists K', (K <= K')%nat /\ levels_of s K' ls' /\ sized ls' /\ cinv K' ls'.
  Proof.
    induction fuel as [|fuel IH]; intros K ls id c v r ls' L Sz Hid Kv HB HI E; cbn [raise_levels] in E.
    - destruct HI as [[HidK I]|(-> & Co & I)].
      + apply bind_Ok_inv in E as (ls1 & E1 & E). destruct (ensure_cinv K id v ls ls1 L Sz I HidK E1) as (K1 & HK1 & (_ & Len & _) & _). destruct (nth_error ls1 id) eqn:N; [discriminate|]. apply nth_error_None in N. lia.
      + rewrite cont_ensure in E by exact Co. cbn [bind] in E. destruct (nth_error ls (S K)) eqn:N; [discriminate|]. injection E as <-. exists K. auto.
    - destruct HI as [[HidK I]|(-> & Co & I)].
      2: { rewrite cont_ensure in E by exact Co. cbn [bind] in E. destruct (nth_error ls (S K)) as [x|] eqn:N.
           - assert (S K < length ls)%nat by (apply nth_error_Some; congruence). destruct L as (_ & Len & _). lia.
           - injection E as <-. exists K. auto. }
      apply bind_Ok_inv in E as (ls1 & E1 & E). destruct (ensure_cinv K id v ls ls1 L Sz I HidK E1) as (K1 & HK1 & L1 & Sz1 & Co1 & I1 & _). clear L Sz I E1 ls.
      assert (Len := proj1 (proj2 L1)). destruct (nth_error ls1 id) as [l|] eqn:N; [|apply nth_error_None in N; lia].
      assert (Bi : (id < length ls1)%nat) by lia.
      apply bind_Ok_inv in E as (cs & EC & E). apply (level_raster_par s K1 s_big l id c r cs) in EC; [|now apply L1|exact HB]. subst cs. cbn [raise_cells] in E. set (q := par K1 id c) in *.
      assert (Ntop : exists top, nth_error ls1 K1 = Some top) by (destruct (nth_error ls1 K1) eqn:X; [eauto|apply nth_error_None in X; lia]). destruct Ntop as [top Nt].
      assert (Hl : 1 <= lv_w l /\ 1 <= lv_h l) by (apply Sz1; eapply nth_error_In; eauto).
      destruct (negb (is_unknown (lv_cells l q)) && less_or_equal (impact v) (impact (lv_cells l q)))%bool eqn:T.
      + injection E as <-. apply andb_true_iff in T as [T1 T2]. apply negb_true_iff in T1. exists K1. split; [lia|].
        destruct (upd_levels s K1 ls1 id l l N eq_refl Hl L1 Sz1) as [L2 Sz2]. split; [exact L2|]. split; [exact Sz2|].
        intros k a t' q' Hk A Bt Kq. rewrite (upd_same_inv _ _ _ N) in A, Bt. destruct (I1 k a t' q' Hk A Bt Kq) as [U|[Ev Hk']]; [exact U|].
        assert (t' = top) by congruence. subst t'. rewrite Ev. assert (U1 : under 1 v (lv_cells l q)) by (apply le_under; assumption).
        destruct (Nat.eq_dec id K1) as [->|Ne].
        * assert (l = top) by congruence. subst. unfold q in U1. unfold par in U1. destruct (Nat.ltb_spec K1 K1); [lia|]. apply (under_more 1); [lia|exact U1].
        * assert (IdK : (id < K1)%nat) by lia. destruct (I1 id l top q IdK N Nt T1) as [U2|[_ X]]; [|lia]. apply (under_more (1 + (K1 - id))); [lia|]. exact (under_trans _ _ _ _ _ U1 U2).
      + set (l1 := write_cell grow l q v) in *.
        destruct (upd_levels s K1 ls1 id l l1 N (write_scale grow _ _ _) (write_sized grow grow_pos _ _ _ Hl) L1 Sz1) as [L2 Sz2].
        set (ls2 := upd ls1 id (fun _ => l1)) in *.
        assert (N2 : forall k, nth_error ls2 k = if Nat.eqb k id then Some l1 else nth_error ls1 k).
        { intros k. unfold ls2. rewrite upd_nth by exact Bi. destruct (Nat.eqb_spec k id); [now rewrite N|reflexivity]. }
        enough (X : (S id <= K1)%nat /\ cinv_ex K1 (S id) v ls2 \/ S id = S K1 /\ cont ls2 /\ cinv K1 ls2).
        { apply (IH K1 ls2 (S id) c v r ls' L2 Sz2) in E; auto. destruct E as (K' & HK' & Y). exists K'. split; [lia|exact Y]. }
        destruct (Nat.eq_dec id K1) as [->|Ne].
        * right. assert (l = top) by congruence. subst top. split; [reflexivity|]. split.
          -- destruct Co1 as (pc & Np & Wp). exists pc. split; [|exact Wp]. rewrite <- Np. unfold ls2 at 2. rewrite upd_length. rewrite N2. destruct (Nat.eqb_spec (length ls1 - 2) K1); [lia|reflexivity].
          -- intros k a t' q' Hk A Bt Kq. rewrite N2 in A, Bt. rewrite Nat.eqb_refl in Bt. injection Bt as <-. destruct (Nat.eqb_spec k K1); [lia|].
             assert (Q0 : q = (0, 0)) by (unfold q, par; destruct (Nat.ltb_spec K1 K1); [lia|reflexivity]).
             assert (Tv : lv_cells l1 (0, 0) = v) by (unfold l1; rewrite write_at, Q0; destruct (coord_eqb_spec (0, 0) (0, 0)); congruence). rewrite Tv.
             destruct (I1 k a l q' Hk A N Kq) as [U|[Ev _]]; [|rewrite Ev; now apply under_refl]. rewrite Q0 in T. apply (raised_under _ _ (lv_cells l (0, 0))); auto. lia.
        * left. split; [lia|]. intros k a t' q' Hk A Bt Kq. rewrite N2 in A, Bt. destruct (Nat.eqb_spec K1 id); [congruence|]. assert (t' = top) by congruence. subst t'.
          destruct (Nat.eqb_spec k id) as [->|].
          -- injection A as <-. unfold l1 in Kq |- *. rewrite write_at in Kq |- *. destruct (coord_eqb_spec q' q); [right; split; [reflexivity|lia]|]. destruct (I1 id l top q' Hk N Nt Kq) as [U|[Ev X]]; [now left|lia].
          -- destruct (I1 k a top q' Hk A Nt Kq) as [U|[Ev X]]; [now left|right; split; [exact Ev|lia]].
  Qed.
  Definition cgood (K : nat) (p : pyramid ER C) : Prop := levels_of s K (py_levels p) /\ sized (py_levels p) /\ py_active p = O /\ cinv K (py_levels p).
  Lemma m3_write_cgood fuel K p c f p' : cgood K p -> (forall x, known (f x)) -> m3_write proto grow impact is_unknown fuel p c f = Ok p' -> exists K', (K <= K')%nat /\ cgood K' p'.
  Proof.
    intros (L & Sz & A0 & I) Kf E. unfold m3_write, py_write in E. rewrite A0 in E. destruct (nth_error (py_levels p) 0) as [l|] eqn:N; [|discriminate].
    set (v := f (lv_cells l c)) in *. assert (Kv : known v) by apply Kf. cbn [Nat.eqb assert_ bind py_active py_levels] in E. assert (B0 : (0 < length (py_levels p))%nat) by (apply nth_error_Some; congruence).
    rewrite upd_nth in E by exact B0. cbn [Nat.eqb] in E. rewrite N in E. cbn [option_map] in E.
    apply bind_Ok_inv in E as (r & HB & E). apply bind_Ok_inv in E as (ls & ER & E). injection E as <-.
    rewrite write_at in ER. replace (coord_eqb c c) with true in ER by (destruct (coord_eqb_spec c c); congruence).
    rewrite write_scale in HB. set (l1 := write_cell grow l c v) in *.
    assert (HS : lv_scale l = EFin s).
    { rewrite (proj2 (proj2 L) 0%nat l N). unfold scale_at. destruct L as (HK & _). destruct (Nat.ltb_spec 0 K); [|lia]. change (2 ^ Z.of_nat 0)%Z with 1%Z. f_equal. lra. }
    rewrite HS in HB. assert (Hl : 1 <= lv_w l /\ 1 <= lv_h l) by (apply Sz; eapply nth_error_In; eauto).
    destruct (upd_levels s K _ 0 l l1 N (write_scale grow _ _ _) (write_sized grow grow_pos _ _ _ Hl) L Sz) as [L1 Sz1].
    apply (raise_cinv fuel K _ 1 c v r ls L1 Sz1) in ER; auto.
    - destruct ER as (K' & HK' & L' & Sz' & I'). exists K'. split; [exact HK'|]. split; [exact L'|]. split; [exact Sz'|]. split; [reflexivity|exact I'].
    - left. split; [destruct L; lia|]. intros k a top q Hk A Bt Kq. rewrite upd_nth in A, Bt by exact B0. destruct (Nat.eqb_spec K 0); [lia|].
      destruct (Nat.eqb_spec k 0) as [->|].
      + rewrite N in A. cbn [option_map] in A. injection A as <-. unfold l1 in Kq |- *. rewrite write_at in Kq |- *. destruct (coord_eqb_spec q c); [right; split; [reflexivity|lia]|]. left. exact (I 0%nat l top q Hk N Bt Kq).
      + left. exact (I k a top q Hk A Bt Kq).
  Qed.
  Theorem coarsest_bound w h p0 hist fuel p : 1 <= w -> 1 <= h -> pyramid_new proto (EInf false) w h (EFin s) = Ok p0 -> keeps_known hist -> m3_run proto grow impact is_unknown fuel p0 hist = Ok p ->
    exists K, length (py_levels p) = S K /\ cinv K (py_levels p).
  Proof.
    intros Hw Hh E0 Kh E. cut (exists K, cgood K p).
    { intros (K & (_ & Len & _) & _ & _ & I). exists K. auto. }
    assert (G0 : exists K, cgood K p0).
    { assert (X := E0). unfold pyramid_new in E0. apply bind_Ok_inv in E0 as (ls & E1 & E0). injection E0 as <-.
      assert (L0 : levels_of s 1 [new_level proto w h (EFin s); new_level proto 1 1 (EInf false)]).
      { split; [lia|]. split; [reflexivity|]. intros [|[|k]] l; cbn [nth_error]; intros N; [| |destruct k; discriminate]; injection N as <-; cbn.
        - unfold scale_at. cbn. f_equal. lra.
        - reflexivity. }
      assert (S0 : sized [new_level proto w h (EFin s); new_level proto 1 1 (EInf false)]).
      { intros l [<-|[<-|[]]]; cbn; lia. }
      destruct (ensure_sized proto s 1 _ ls L0 S0 E1) as (new & El & L & Sz & Co & Hn). exists (1 + length new)%nat. split; [exact L|]. split; [exact Sz|]. split; [reflexivity|].
      intros k l top q Hk N Nt Kq. assert (P : lv_cells l q = proto).
      { apply nth_error_In in N. cbn [py_levels] in N. rewrite El in N. apply in_mid in N as [[<-|[<-|[]]]|N]; try reflexivity. now apply Hn. }
      congruence. }
    clear E0 Hw Hh. revert p0 G0 E. induction hist as [|(c, f) hist IH]; intros p0 [K G] E; cbn [m3_run] in E; [injection E as <-; eauto|].
    apply bind_Ok_inv in E as (q & E1 & E). destruct (m3_write_cgood fuel K p0 c f q G (Kh c f (or_introl eq_refl)) E1) as (K' & _ & G').
    apply (IH (fun c f I => Kh c f (or_intror I)) q (ex_intro _ K' G') E).
  Qed.
End Bound.
