(** Copy-on-write maps behave as independent total functions (C08, C09). *)
From Coq Require Import ZArith List Lia Bool Arith.
From Verif.Base Require Import Outcome Num.
From Verif.Model Require Import MathUtils Geometry Grid PlainMap LazyMap.
From Verif.Spec Require Import MapSpec ManyMapsSpec.
From Verif.Proofs Require Import GrowthProofs PlainMapProofs.
Import ListNotations.

(** *** counting *)
Section Count.
  Context {A : Type} (f : A -> list nat).
  Lemma count_flat_app (l l' : list A) x :
    count_occ Nat.eq_dec (flat_map f (l ++ l')) x =
    (count_occ Nat.eq_dec (flat_map f l) x + count_occ Nat.eq_dec (flat_map f l') x)%nat.
  Proof. rewrite flat_map_app, count_occ_app. reflexivity. Qed.
  Lemma count_flat_ge (l : list A) x i a : nth_error l i = Some a ->
    (count_occ Nat.eq_dec (f a) x <= count_occ Nat.eq_dec (flat_map f l) x)%nat.
  Proof.
    intros H. apply nth_error_split in H. destruct H as (l1 & l2 & -> & _).
    rewrite count_flat_app. cbn. rewrite count_occ_app. lia.
  Qed.
  Lemma count_flat_unique (l : list A) x : forall i j a b,
    (count_occ Nat.eq_dec (flat_map f l) x <= 1)%nat ->
    nth_error l i = Some a -> nth_error l j = Some b -> In x (f a) -> In x (f b) -> i = j.
  Proof.
    induction l as [|y l IH]; intros i j a b HC Hi Hj Ha Hb; [destruct i; discriminate|].
    cbn in HC. rewrite count_occ_app in HC.
    apply (count_occ_In Nat.eq_dec) in Ha. apply (count_occ_In Nat.eq_dec) in Hb.
    destruct i as [|i], j as [|j]; cbn in Hi, Hj; auto.
    - inversion Hi; subst y. assert (G := count_flat_ge l x j b Hj). lia.
    - inversion Hj; subst y. assert (G := count_flat_ge l x i a Hi). lia.
    - f_equal. eapply IH; eauto; try lia; apply (count_occ_In Nat.eq_dec); auto.
  Qed.
End Count.
Lemma count_unique (l : list nat) x i j : (count_occ Nat.eq_dec l x <= 1)%nat ->
  nth_error l i = Some x -> nth_error l j = Some x -> i = j.
Proof.
  intros HC Hi Hj. apply (count_flat_unique (fun y => [y]) l x i j x x); auto; try (left; auto).
  replace (flat_map (fun y => [y]) l) with l; auto.
  clear. induction l; cbn; congruence.
Qed.

Lemma put_set_nth {A} (l : list A) n a : put l n a = set_nth l n a.
Proof. revert n; induction l; intros [|n]; cbn; auto. Qed.
Lemma nth_error_set_eq {A} (l : list A) n a x : nth_error l n = Some x -> nth_error (set_nth l n a) n = Some a.
Proof.
  intros H. rewrite nth_error_set_nth, Nat.eqb_refl.
  assert (n < length l)%nat by (apply nth_error_Some; congruence).
  destruct (Nat.ltb_spec n (length l)); auto; lia.
Qed.
Lemma nth_error_set_ne {A} (l : list A) n m a : n <> m -> nth_error (set_nth l n a) m = nth_error l m.
Proof. intros H. rewrite nth_error_set_nth. destruct (Nat.eqb_spec m n); auto. congruence. Qed.
Lemma znth_nth {A} (l : list A) i : (0 <= i)%Z -> znth l i = nth_error l (Z.to_nat i).
Proof. intros H. unfold znth. destruct (Z.ltb_spec i 0); auto; lia. Qed.

Local Open Scope Z_scope.
Section Lazy.
  Variable bits : Z.
  Hypothesis bits_ok : 0 <= bits <= 15.
  Variable M K EXT : Z.
  Hypothesis HM0 : 0 <= M.
  Hypothesis HK1 : 1 <= K.
  Hypothesis HBdef : EXT = M + K + 2 * 2 ^ bits.
  Hypothesis HB : 2 * EXT < 2 ^ (16 + bits).
  Context {C Ob : Type}.
  Variable cell_upd : C -> Ob -> C.
  Notation S_ := (2 ^ bits).
  Notation lstate := (lstate C).

  Lemma S_pos : 1 <= S_.
  Proof. assert (0 < S_) by (apply Z.pow_pos_nonneg; lia). lia. Qed.
  Lemma S_le : S_ <= 2 ^ 15.
  Proof. apply Z.pow_le_mono_r; lia. Qed.
  Lemma tile_size_S : tile_size bits = S_.
  Proof. unfold tile_size. rewrite Z.shiftl_1_l. reflexivity. Qed.

  (** *** owners *)
  Definition mowns (o : option lmap) : list nat :=
    match o with Some m => l_utile m :: l_tiles m | None => [] end.
  Lemma tile_owners_flat (s : lstate) : tile_owners s = flat_map mowns (s_maps s).
  Proof.
    unfold tile_owners, live_maps. induction (s_maps s) as [|[m|] l IH]; cbn; auto.
    f_equal. f_equal. auto.
  Qed.

  Definition live (s : lstate) (i : nat) (m : lmap) : Prop := nth_error (s_maps s) i = Some (Some m).
  Lemma live_In s i m : live s i m -> In m (live_maps s).
  Proof.
    intros H. unfold live_maps. apply in_flat_map. exists (Some m). split; [|left; auto].
    eapply nth_error_In; eauto.
  Qed.

  Lemma sole_tile s i m k t : live s i m -> nth_error (l_tiles m) k = Some t -> (tile_use_count s t <= 1)%nat ->
    forall i' m', live s i' m' -> l_utile m' <> t /\ forall k', nth_error (l_tiles m') k' = Some t -> i' = i /\ k' = k.
  Proof.
    intros HL Hk HC i' m' HL'. unfold tile_use_count in HC. rewrite tile_owners_flat in HC.
    assert (Hin : In t (mowns (Some m))) by (right; eapply nth_error_In; eauto).
    assert (Hc1 : (count_occ Nat.eq_dec (mowns (Some m)) t <= 1)%nat).
    { etransitivity; [|exact HC]. eapply count_flat_ge; eauto. }
    cbn in Hc1.
    assert (Hcl : (1 <= count_occ Nat.eq_dec (l_tiles m) t)%nat).
    { apply (count_occ_In Nat.eq_dec). eapply nth_error_In; eauto. }
    split.
    - intros E. assert (i' = i).
      { eapply (count_flat_unique mowns); eauto. rewrite <- E. left; auto. }
      subst i'. assert (m' = m) by (unfold live in *; congruence). subst m'.
      revert Hc1. destruct (Nat.eq_dec (l_utile m) t); [lia|congruence].
    - intros k' Hk'. assert (i' = i).
      { eapply (count_flat_unique mowns); eauto. right. eapply nth_error_In; eauto. }
      subst i'. assert (m' = m) by (unfold live in *; congruence). subst m'. split; auto.
      eapply (count_unique (l_tiles m) t); eauto. revert Hc1. destruct (Nat.eq_dec (l_utile m) t); lia.
  Qed.

  Lemma owner_live_tile s i m t : live s i m -> t = l_utile m \/ In t (l_tiles m) -> (t < length (s_tiles s))%nat ->
    In t (live_tiles s).
  Proof.
    intros HL Ht Hlt. unfold live_tiles. apply filter_In. split; [apply in_seq; lia|].
    apply Nat.ltb_lt. unfold tile_use_count. rewrite tile_owners_flat.
    apply (count_occ_In Nat.eq_dec). apply in_flat_map. exists (Some m).
    split; [eapply nth_error_In; eauto|]. cbn. destruct Ht; auto.
  Qed.

  Lemma live_tiles_NoDup (s : lstate) : NoDup (live_tiles s).
  Proof. apply NoDup_filter. apply seq_NoDup. Qed.

  Lemma sole_cell s t j p : In t (live_tiles s) -> nth_error (tile_cells s t) j = Some p ->
    (cell_use_count s p <= 1)%nat ->
    (forall i m, live s i m -> l_ucell m <> p) /\
    (forall t' j', In t' (live_tiles s) -> nth_error (tile_cells s t') j' = Some p -> t' = t /\ j' = j).
  Proof.
    intros HL Hj HC. unfold cell_use_count, cell_owners in HC. rewrite count_occ_app in HC.
    apply In_nth_error in HL. destruct HL as [a Ha].
    assert (G := count_flat_ge (tile_cells s) (live_tiles s) p a t Ha).
    assert (Hc1 : (1 <= count_occ Nat.eq_dec (tile_cells s t) p)%nat).
    { apply (count_occ_In Nat.eq_dec). eapply nth_error_In; eauto. }
    split.
    - intros i m Hm E. apply live_In in Hm.
      assert (Hu : In p (map l_ucell (live_maps s))) by (rewrite <- E; apply in_map; auto).
      apply (count_occ_In Nat.eq_dec) in Hu. lia.
    - intros t' j' HL' Hj'. apply In_nth_error in HL'. destruct HL' as [a' Ha'].
      assert (a' = a).
      { eapply (count_flat_unique (tile_cells s) (live_tiles s) p); [|exact Ha'|exact Ha| |].
        - lia.
        - eapply nth_error_In; eauto.
        - eapply nth_error_In; eauto. }
      subst a'. assert (t' = t) by congruence. subst t'. split; auto.
      eapply (count_unique (tile_cells s t) p); eauto. lia.
  Qed.

  (** *** views *)
  Definition tview (s : lstate) (t j : nat) : option C :=
    match nth_error (tile_cells s t) j with Some p => nth_error (s_cells s) p | None => None end.

  Definition hwf (s : lstate) : Prop :=
    Forall (fun t : ltile => Z.of_nat (length t) = S_ * S_ /\ Forall (fun p => (p < length (s_cells s))%nat) t) (s_tiles s).

  Lemma tile_cells_nth (s : lstate) t : (t < length (s_tiles s))%nat -> nth_error (s_tiles s) t = Some (tile_cells s t).
  Proof. intros H. unfold tile_cells. apply nth_error_nth'. exact H. Qed.
  Lemma hwf_tile (s : lstate) t : hwf s -> (t < length (s_tiles s))%nat ->
    Z.of_nat (length (tile_cells s t)) = S_ * S_ /\ forall p, In p (tile_cells s t) -> (p < length (s_cells s))%nat.
  Proof.
    intros HW Ht. apply tile_cells_nth in Ht. apply nth_error_In in Ht.
    unfold hwf in HW. rewrite Forall_forall in HW. apply HW in Ht. destruct Ht as [H1 H2].
    rewrite Forall_forall in H2. auto.
  Qed.

  Definition slot (m : lmap) (ic : coord) : nat := Z.to_nat (cy ic / S_ * l_tnx m + cx ic / S_).
  Definition cidx (ic : coord) : nat := Z.to_nat (cx ic mod S_ * S_ + cy ic mod S_).
  Definition in_tiles (m : lmap) (ic : coord) : Prop :=
    0 <= cx ic < l_tnx m * S_ /\ 0 <= cy ic < l_tny m * S_.
  Definition mcell (s : lstate) (m : lmap) (ic : coord) : option C :=
    match nth_error (l_tiles m) (slot m ic) with Some t => tview s t (cidx ic) | None => None end.

  Lemma cidx_range ic : (Z.of_nat (cidx ic) < S_ * S_) /\ 0 <= cx ic mod S_ * S_ + cy ic mod S_.
  Proof.
    assert (P := S_pos). assert (A := Z.mod_pos_bound (cx ic) S_). assert (B := Z.mod_pos_bound (cy ic) S_).
    unfold cidx. rewrite Z2Nat.id by nia. nia.
  Qed.
  Lemma cell_index_cidx ic : cell_index bits ic = Z.of_nat (cidx ic).
  Proof.
    unfold cell_index, cidx, tile_mask. rewrite tile_size_S.
    replace (S_ - 1) with (Z.ones bits) by (rewrite Z.ones_equiv; lia).
    rewrite !Z.land_ones by lia. rewrite Z2Nat.id; auto. apply cidx_range.
  Qed.

  (** extents of an axis: origin [o], extent [w], extent in tiles [T] *)
  Definition lax (o w T : Z) : Prop := 0 <= o <= EXT /\ 0 <= T - o <= EXT /\ T - w < S_ /\ o <= w.

  (** geometry of a map, independent of the heap *)
  Definition geo (m : lmap) : Prop :=
    1 <= l_tnx m /\ 1 <= l_tny m /\ l_tnx m * l_tny m < 2 ^ 32 /\
    Z.of_nat (length (l_tiles m)) = l_tnx m * l_tny m /\
    1 <= l_w m <= l_tnx m * S_ /\ 1 <= l_h m <= l_tny m * S_ /\
    lax (cx (l_origin m)) (l_w m) (l_tnx m * S_) /\ lax (cy (l_origin m)) (l_h m) (l_tny m * S_).

  Lemma tdiv_range n x : 0 <= x < n * S_ -> 0 <= x / S_ < n.
  Proof.
    assert (P := S_pos). intros H. split; [apply Z.div_pos; lia|]. apply Z.div_lt_upper_bound; lia.
  Qed.

  Lemma slot_range m ic : geo m -> in_tiles m ic ->
    0 <= cy ic / S_ * l_tnx m + cx ic / S_ < l_tnx m * l_tny m.
  Proof.
    intros (H1 & H2 & _) [Hx Hy]. assert (A := tdiv_range _ _ Hx). assert (B := tdiv_range _ _ Hy). nia.
  Qed.

  Lemma tile_index_slot m ic : geo m -> in_tiles m ic -> tile_index bits m ic = Z.of_nat (slot m ic).
  Proof.
    intros HG HI. assert (R := slot_range m ic HG HI). destruct HG as (_ & _ & H & _).
    unfold tile_index, slot. rewrite !Z.shiftr_div_pow2 by lia.
    rewrite Z2Nat.id by lia. apply u32_id. lia.
  Qed.

  Lemma slot_some m ic : geo m -> in_tiles m ic -> exists t, nth_error (l_tiles m) (slot m ic) = Some t.
  Proof.
    intros HG HI. assert (R := slot_range m ic HG HI). destruct HG as (_ & _ & _ & HL & _).
    destruct (nth_error (l_tiles m) (slot m ic)) eqn:E; eauto. apply nth_error_None in E. unfold slot in E. lia.
  Qed.

  Lemma tile_at_slot m ic t : geo m -> in_tiles m ic ->
    nth_error (l_tiles m) (slot m ic) = Some t -> tile_at bits m ic = Ok t.
  Proof.
    intros HG HI Ht. unfold tile_at. rewrite tile_index_slot by auto.
    rewrite znth_nth by lia. rewrite Nat2Z.id, Ht. reflexivity.
  Qed.

  Lemma cell_ptr_ok (s : lstate) t ic : hwf s -> (t < length (s_tiles s))%nat ->
    exists p, cell_ptr bits s t ic = Ok p /\ nth_error (tile_cells s t) (cidx ic) = Some p /\
      (p < length (s_cells s))%nat.
  Proof.
    intros HW Ht. unfold cell_ptr. rewrite tile_cells_nth by auto.
    rewrite cell_index_cidx, znth_nth by lia. rewrite Nat2Z.id.
    destruct (hwf_tile s t HW Ht) as [HL HP]. assert (R := cidx_range ic).
    destruct (nth_error (tile_cells s t) (cidx ic)) as [p|] eqn:E.
    - exists p. repeat split; auto. apply HP. eapply nth_error_In; eauto.
    - apply nth_error_None in E. lia.
  Qed.

  Lemma slot_inj m ic ic' : geo m -> in_tiles m ic -> in_tiles m ic' ->
    slot m ic = slot m ic' -> cidx ic = cidx ic' -> ic = ic'.
  Proof.
    intros HG HI HI' E1 E2. assert (P := S_pos).
    assert (R1 := slot_range m ic HG HI). assert (R2 := slot_range m ic' HG HI').
    assert (Q1 := cidx_range ic). assert (Q2 := cidx_range ic').
    unfold slot in E1. unfold cidx in E2. apply Z2Nat.inj in E1; try lia. apply Z2Nat.inj in E2; try lia.
    destruct HI as [Hx Hy], HI' as [Hx' Hy'].
    assert (A := tdiv_range _ _ Hx). assert (B := tdiv_range _ _ Hx').
    assert (cx ic / S_ = cx ic' / S_ /\ cy ic / S_ = cy ic' / S_) as [D1 D2].
    { assert (cy ic / S_ = cy ic' / S_) by nia. split; nia. }
    assert (M1 := Z.mod_pos_bound (cx ic) S_). assert (M2 := Z.mod_pos_bound (cy ic) S_).
    assert (M3 := Z.mod_pos_bound (cx ic') S_). assert (M4 := Z.mod_pos_bound (cy ic') S_).
    assert (cx ic mod S_ = cx ic' mod S_ /\ cy ic mod S_ = cy ic' mod S_) as [F1 F2].
    { assert (cx ic mod S_ = cx ic' mod S_) by nia. split; nia. }
    assert (cx ic = cx ic').
    { rewrite (Z.div_mod (cx ic) S_), (Z.div_mod (cx ic') S_) by lia. congruence. }
    assert (cy ic = cy ic').
    { rewrite (Z.div_mod (cy ic) S_), (Z.div_mod (cy ic') S_) by lia. congruence. }
    destruct ic, ic'; cbn in *; congruence.
  Qed.

  (** *** one map *)
  Definition hcov (m : lmap) (c : coord) : bool :=
    has_internal_cell (l_w m) (l_h m) (external2internal (l_origin m) c).

  Definition minv (s : lstate) (m : lmap) (sm : smap C) : Prop :=
    geo m /\ l_unb m = sm_unb sm /\
    (l_unb m = false -> l_w m = sm_w sm /\ l_h m = sm_h sm /\ l_origin m = (l_w m / 2, l_h m / 2)) /\
    (forall t, t = l_utile m \/ In t (l_tiles m) -> (t < length (s_tiles s))%nat) /\
    exists proto, nth_error (s_cells s) (l_ucell m) = Some proto /\
      (forall j, Z.of_nat j < S_ * S_ -> tview s (l_utile m) j = Some proto) /\
      (forall c, hcov m c = false -> sm_fun sm c = proto) /\
      (forall ic, in_tiles m ic -> mcell s m ic = Some (sm_fun sm (internal2external (l_origin m) ic))).

  Lemma ext_int o c : internal2external o (external2internal o c) = c.
  Proof. destruct c, o; unfold internal2external, external2internal, coord_sub, coord_add; cbn. f_equal; lia. Qed.
  Lemma int_ext o c : external2internal o (internal2external o c) = c.
  Proof. destruct c, o; unfold internal2external, external2internal, coord_sub, coord_add; cbn. f_equal; lia. Qed.

  Lemma hcov_in_tiles m c : geo m -> hcov m c = true -> in_tiles m (external2internal (l_origin m) c).
  Proof. intros HG H. apply has_internal_iff in H. destruct HG as (_&_&_&_&?&?&_). unfold in_tiles. lia. Qed.

  Lemma lcell_internal_ok s m ic v : hwf s -> geo m -> in_tiles m ic ->
    (forall t, t = l_utile m \/ In t (l_tiles m) -> (t < length (s_tiles s))%nat) ->
    mcell s m ic = Some v -> lcell_internal bits s m ic = Ok v.
  Proof.
    intros HW HG HI HT HM. unfold lcell_internal.
    destruct (slot_some m ic HG HI) as [t Ht]. rewrite (tile_at_slot m ic t) by auto. cbn [bind].
    assert (Htl : (t < length (s_tiles s))%nat) by (apply HT; right; eapply nth_error_In; eauto).
    destruct (cell_ptr_ok s t ic HW Htl) as (p & -> & Hp & _). cbn [bind].
    unfold mcell, tview in HM. rewrite Ht, Hp in HM. unfold deref. rewrite HM. reflexivity.
  Qed.

  Lemma minv_reads s m sm c : hwf s -> minv s m sm -> valid_coord sm c -> lget bits s m c = Ok (sm_fun sm c).
  Proof.
    intros HW (HG & HU & HBd & HT & proto & HP & _ & HO & HV) Hc. unfold lget.
    assert (HR : hcov m c = true -> lcell_internal bits s m (external2internal (l_origin m) c) = Ok (sm_fun sm c)).
    { intros H. apply lcell_internal_ok; auto.
      - apply hcov_in_tiles; auto.
      - rewrite HV by (apply hcov_in_tiles; auto). rewrite ext_int. reflexivity. }
    fold (hcov m c).
    destruct (l_unb m) eqn:EU.
    - destruct (hcov m c) eqn:E; auto. unfold deref. rewrite HP, (HO c E). reflexivity.
    - apply HR. destruct (HBd eq_refl) as (E1 & E2 & E3).
      unfold hcov. rewrite E3. apply has_internal_iff.
      assert (binside (sm_w sm) (sm_h sm) c) as Hb by (apply Hc; congruence).
      rewrite <- E1, <- E2 in Hb. unfold binside in Hb.
      unfold external2internal, coord_add, cx, cy in *; cbn [fst snd]; lia.
  Qed.

  (** *** the whole program *)
  Definition linv (s : lstate) (ms : list (option (smap C))) : Prop :=
    hwf s /\ length (s_maps s) = length ms /\
    forall i, match nth_error (s_maps s) i, nth_error ms i with
              | Some (Some m), Some (Some sm) => minv s m sm
              | Some None, Some None => True
              | None, None => True
              | _, _ => False
              end.

  Lemma linv_live s ms i sm : linv s ms -> nth_error ms i = Some (Some sm) -> exists m, live s i m /\ minv s m sm.
  Proof.
    intros (_ & _ & H) Hi. specialize (H i). rewrite Hi in H. unfold live.
    destruct (nth_error (s_maps s) i) as [[m|]|]; try contradiction. eauto.
  Qed.

  Lemma linv_get s ms i sm : linv s ms -> nth_error ms i = Some (Some sm) ->
    exists m, get_map s i = Ok m /\ live s i m /\ minv s m sm.
  Proof.
    intros H Hi. destruct (linv_live s ms i sm H Hi) as (m & HL & HM). exists m. split; [|split; auto].
    unfold get_map. unfold live in HL. rewrite HL. reflexivity.
  Qed.

  (** moving a map's invariant to another heap with the same contents *)
  Lemma minv_heap s s' m sm :
    (forall t, t = l_utile m \/ In t (l_tiles m) -> (t < length (s_tiles s'))%nat) ->
    (forall t j, (t = l_utile m \/ In t (l_tiles m)) -> Z.of_nat j < S_ * S_ -> tview s' t j = tview s t j) ->
    nth_error (s_cells s') (l_ucell m) = nth_error (s_cells s) (l_ucell m) ->
    minv s m sm -> minv s' m sm.
  Proof.
    intros HT HV HU (HG & E1 & HBd & HT0 & proto & HP & HUt & HO & HC).
    split; [auto|]. split; [auto|]. split; [auto|]. split; [auto|].
    exists proto. rewrite HU. split; auto. split.
    { intros j Hj. rewrite HV; auto. }
    split; auto. intros ic Hic. rewrite <- HC by auto. unfold mcell.
    destruct (nth_error (l_tiles m) (slot m ic)) as [t|] eqn:Et; auto.
    apply HV; [right; eapply nth_error_In; eauto|apply cidx_range].
  Qed.

  (** replacing a slot by a tile with the same contents *)
  Lemma minv_slot s m sm k t t' : minv s m sm -> nth_error (l_tiles m) k = Some t ->
    (t' < length (s_tiles s))%nat ->
    (forall j, Z.of_nat j < S_ * S_ -> tview s t' j = tview s t j) ->
    minv s (set_slot m (Z.of_nat k) t') sm.
  Proof.
    intros (HG & E1 & HBd & HT0 & proto & HP & HUt & HO & HC) Hk Ht' HV.
    assert (Hkl : (k < length (l_tiles m))%nat) by (apply nth_error_Some; congruence).
    assert (HG' : geo (set_slot m (Z.of_nat k) t')).
    { unfold geo in *. cbn. rewrite zset_length. auto. }
    split; [exact HG'|]. split; [auto|]. split; [auto|]. split.
    { cbn. intros u [Hu|Hu]; [auto|]. apply In_zset in Hu. destruct Hu; subst; auto. }
    exists proto. split; [auto|]. split; [auto|]. split; [auto|].
    intros ic Hic. cbn [set_slot l_origin]. rewrite <- HC by exact Hic.
    unfold mcell. cbn [set_slot l_tiles]. unfold slot. cbn [set_slot l_tnx]. fold (slot m ic).
    unfold zset. rewrite Nat2Z.id, nth_error_set_nth.
    destruct (Nat.eqb_spec (slot m ic) k) as [->|]; auto.
    destruct (Nat.ltb_spec k (length (l_tiles m))); [|lia]. rewrite Hk. apply HV. apply cidx_range.
  Qed.

  Lemma get_map_live (s : lstate) i m : live s i m -> get_map s i = Ok m.
  Proof. intros H. unfold get_map. unfold live in H. rewrite H. reflexivity. Qed.

  Lemma linv_other s ms s' ms' i :
    linv s ms -> hwf s' -> length (s_maps s') = length ms' ->
    (forall j, j <> i -> nth_error (s_maps s') j = nth_error (s_maps s) j /\ nth_error ms' j = nth_error ms j) ->
    (forall j m sm, j <> i -> live s j m -> minv s m sm -> minv s' m sm) ->
    match nth_error (s_maps s') i, nth_error ms' i with
    | Some (Some m), Some (Some sm) => minv s' m sm
    | Some None, Some None => True
    | None, None => True
    | _, _ => False
    end -> linv s' ms'.
  Proof.
    intros (HW & HL & HI) HW' HL' HE HM Hi. split; [auto|]. split; [auto|]. intros j.
    destruct (Nat.eq_dec j i) as [->|Hne]; auto.
    destruct (HE j Hne) as [-> ->]. specialize (HI j).
    destruct (nth_error (s_maps s) j) as [[m|]|] eqn:E; auto.
    destruct (nth_error ms j) as [[sm|]|]; auto. eapply HM; eauto.
  Qed.

  (** step 1: own the tile *)
  Lemma own_tile_spec s ms i sm m c : linv s ms -> nth_error ms i = Some (Some sm) -> live s i m ->
    in_tiles m (external2internal (l_origin m) c) ->
    exists s' m' t, own_tile bits s i c = Ok s' /\ linv s' ms /\ live s' i m' /\
      l_origin m' = l_origin m /\ l_w m' = l_w m /\ l_h m' = l_h m /\ l_unb m' = l_unb m /\
      in_tiles m' (external2internal (l_origin m') c) /\
      nth_error (l_tiles m') (slot m' (external2internal (l_origin m') c)) = Some t /\
      (tile_use_count s' t <= 1)%nat.
  Proof.
    intros HI Hi HL Hin. destruct (linv_live s ms i sm HI Hi) as (m0 & HL0 & HM).
    assert (m0 = m) by (unfold live in *; congruence). subst m0. clear HL0.
    assert (HMc := HM). destruct HMc as (HG & HU & HBd & HT & _).
    set (ic := external2internal (l_origin m) c) in *.
    destruct (slot_some m ic HG Hin) as [t Ht].
    unfold own_tile. rewrite (get_map_live s i m HL). cbn [bind]. fold ic.
    rewrite (tile_at_slot m ic t HG Hin Ht). cbn [bind].
    destruct (Nat.ltb_spec 1 (tile_use_count s t)) as [Hs|Hs].
    2:{ exists s, m, t. split; [reflexivity|]. split; [exact HI|]. split; [exact HL|].
        repeat (split; [reflexivity|]). split; [exact Hin|]. split; [exact Ht|exact Hs]. }
    assert (Htl : (t < length (s_tiles s))%nat) by (apply HT; right; eapply nth_error_In; eauto).
    rewrite (tile_cells_nth s t Htl). cbn [alloc_tile].
    set (t' := length (s_tiles s)).
    set (s1 := mkLState (s_cells s) (s_tiles s ++ [tile_cells s t]) (s_maps s)).
    set (m' := set_slot m (tile_index bits m ic) t').
    assert (HW := proj1 HI).
    assert (TC : forall u, (u < length (s_tiles s))%nat -> tile_cells s1 u = tile_cells s u).
    { intros u Hu. unfold tile_cells. cbn. apply app_nth1. exact Hu. }
    assert (TC' : tile_cells s1 t' = tile_cells s t).
    { unfold tile_cells at 1. cbn. rewrite app_nth2 by (unfold t'; lia). unfold t'. rewrite Nat.sub_diag. reflexivity. }
    assert (HW1 : hwf (set_map s1 i (Some m'))).
    { unfold hwf. cbn. apply Forall_app. split; [exact HW|]. constructor; auto.
      destruct (hwf_tile s t HW Htl) as [A B]. split; auto. rewrite Forall_forall. auto. }
    assert (HMx : forall j mj smj, live s j mj -> minv s mj smj -> minv (set_map s1 i (Some m')) mj smj).
    { intros j mj smj HLj HMj. apply (minv_heap s); auto.
      - intros u Hu. destruct HMj as (_ & _ & _ & HTj & _). cbn. rewrite app_length. specialize (HTj u Hu). lia.
      - intros u jj Hu Hjj. destruct HMj as (_ & _ & _ & HTj & _). unfold tview.
        change (tile_cells (set_map s1 i (Some m')) u) with (tile_cells s1 u). rewrite TC; auto. }
    assert (HMi : minv (set_map s1 i (Some m')) m' sm).
    { assert (Em : m' = set_slot m (Z.of_nat (slot m ic)) t') by (unfold m'; rewrite tile_index_slot by auto; reflexivity).
      rewrite Em at 2. eapply minv_slot; [apply (HMx i m sm HL HM)|exact Ht| |].
      - cbn. rewrite app_length. unfold t'. cbn. lia.
      - intros j Hj. unfold tview. change (tile_cells (set_map s1 i (Some m'))) with (tile_cells s1).
        rewrite TC', TC by auto. reflexivity. }
    assert (HLi : live (set_map s1 i (Some m')) i m').
    { unfold live. cbn. eapply nth_error_set_eq. exact HL. }
    exists (set_map s1 i (Some m')), m', t'. split; [reflexivity|]. split.
    { eapply (linv_other s ms _ ms i); eauto.
      - cbn. rewrite set_nth_length. apply HI.
      - intros j Hj. split; auto. cbn. apply nth_error_set_ne. auto.
      - unfold live in HLi. rewrite HLi, Hi. exact HMi. }
    split; [exact HLi|]. repeat (split; [reflexivity|]). split; [exact Hin|]. split.
    { unfold m'. rewrite tile_index_slot by auto. cbn. unfold slot. cbn. fold ic. fold (slot m ic).
      unfold zset. rewrite Nat2Z.id. eapply nth_error_set_eq. exact Ht. }
    (* the fresh tile has one owner *)
    unfold tile_use_count. rewrite tile_owners_flat. cbn [set_map s_maps s1].
    assert (Hfresh : forall u, In u (flat_map mowns (s_maps s)) -> (u < t')%nat).
    { intros u Hu. apply in_flat_map in Hu. destruct Hu as ([mu|] & Hmu & Hu); [|contradiction].
      apply In_nth_error in Hmu. destruct Hmu as [a Ha].
      assert (HIa := proj2 (proj2 HI) a). rewrite Ha in HIa.
      destruct (nth_error ms a) as [[sma|]|]; try contradiction.
      destruct HIa as (_ & _ & _ & HTa & _). apply HTa. cbn in Hu. destruct Hu; auto. }
    assert (Hz : forall l, (forall u, In u l -> (u < t')%nat) -> count_occ Nat.eq_dec l t' = 0%nat).
    { intros l Hl. apply count_occ_not_In. intros Hx. apply Hl in Hx. lia. }
    unfold live in HL. apply nth_error_split in HL. destruct HL as (l1 & l2 & El & Eli).
    rewrite El. replace (set_nth (l1 ++ Some m :: l2) i (Some m')) with (l1 ++ Some m' :: l2).
    2:{ subst i. clear. induction l1; cbn; auto. f_equal; auto. }
    rewrite El in Hfresh. rewrite flat_map_app in Hfresh. cbn in Hfresh.
    rewrite count_flat_app. cbn [flat_map mowns]. rewrite count_occ_app.
    rewrite (Hz (flat_map mowns l1)) by (intros u Hu; apply Hfresh; apply in_or_app; auto).
    rewrite (Hz (flat_map mowns l2)).
    2:{ intros u Hu. apply Hfresh. apply in_or_app. right. right. apply in_or_app. auto. }
    rewrite Nat.add_0_r. cbn [Nat.add].
    cbn [count_occ]. destruct (Nat.eq_dec (l_utile m') t') as [e|_].
    { exfalso. cbn in e. assert (l_utile m < t')%nat; [|lia]. apply Hfresh. apply in_or_app. right. left. auto. }
    cbn [m' set_slot l_tiles]. unfold zset.
    assert (Hml : forall u, In u (l_tiles m) -> (u < t')%nat).
    { intros u Hu. apply Hfresh. apply in_or_app. right. right. apply in_or_app. auto. }
    clear - Hml. generalize (Z.to_nat (tile_index bits m ic)). revert Hml. generalize (l_tiles m).
    induction l as [|x l IH]; intros Hl n; cbn; [lia|]. destruct n; cbn.
    - destruct (Nat.eq_dec t' t'); [|congruence].
      assert (count_occ Nat.eq_dec l t' = 0)%nat; [|lia]. apply count_occ_not_In.
      intros Hx. assert (t' < t')%nat; [|lia]. apply Hl. right; auto.
    - destruct (Nat.eq_dec x t'); [subst; assert (t' < t')%nat; [apply Hl; left; auto|lia]|].
      apply IH. intros u Hu. apply Hl. right; auto.
  Qed.

  Lemma count_set_fresh (l : list nat) n p : (forall u, In u l -> (u < p)%nat) ->
    (count_occ Nat.eq_dec (set_nth l n p) p <= 1)%nat.
  Proof.
    revert n. induction l as [|x l IH]; intros n Hl; cbn; [lia|]. destruct n; cbn.
    - destruct (Nat.eq_dec p p); [|congruence].
      assert (count_occ Nat.eq_dec l p = 0)%nat; [|lia]. apply count_occ_not_In.
      intros Hx. assert (p < p)%nat; [|lia]. apply Hl. right; auto.
    - destruct (Nat.eq_dec x p); [subst; assert (p < p)%nat; [apply Hl; left; auto|lia]|].
      apply IH. intros u Hu. apply Hl. right; auto.
  Qed.
  Lemma count_flat_one (f : nat -> list nat) (l : list nat) (t : nat) p : NoDup l ->
    (forall u, In u l -> u <> t -> ~ In p (f u)) -> (count_occ Nat.eq_dec (f t) p <= 1)%nat ->
    (count_occ Nat.eq_dec (flat_map f l) p <= 1)%nat.
  Proof.
    intros HN Hu Ht. induction HN as [|x l Hx HN IH]; cbn; [lia|]. rewrite count_occ_app.
    destruct (Nat.eq_dec x t) as [->|Hne].
    - assert (count_occ Nat.eq_dec (flat_map f l) p = 0)%nat; [|lia].
      apply count_occ_not_In. intros Hin. apply in_flat_map in Hin. destruct Hin as (u & H1 & H2).
      apply (Hu u); auto; [right; auto|congruence].
    - assert (count_occ Nat.eq_dec (f x) p = 0)%nat.
      { apply count_occ_not_In. apply Hu; auto. left; auto. }
      assert (count_occ Nat.eq_dec (flat_map f l) p <= 1)%nat; [|lia].
      apply IH. intros u H1 H2. apply Hu; auto. right; auto.
  Qed.

  Lemma live_tiles_lt (s : lstate) t : In t (live_tiles s) -> (t < length (s_tiles s))%nat.
  Proof. intros H. apply filter_In in H. destruct H as [H _]. apply in_seq in H. lia. Qed.
  Lemma live_tiles_same (s s' : lstate) : s_maps s' = s_maps s -> length (s_tiles s') = length (s_tiles s) ->
    live_tiles s' = live_tiles s.
  Proof. intros E1 E2. unfold live_tiles, tile_use_count, tile_owners, live_maps. rewrite E1, E2. reflexivity. Qed.
  Lemma live_maps_In (s : lstate) m : In m (live_maps s) -> exists i, live s i m.
  Proof.
    intros H. unfold live_maps in H. apply in_flat_map in H. destruct H as ([m'|] & H1 & H2); [|contradiction].
    destruct H2 as [->|[]]. apply In_nth_error in H1. exact H1.
  Qed.

  Lemma linv_minv s ms i m : linv s ms -> live s i m -> exists sm, nth_error ms i = Some (Some sm) /\ minv s m sm.
  Proof.
    intros (_ & _ & H) Hi. specialize (H i). unfold live in Hi. rewrite Hi in H.
    destruct (nth_error ms i) as [[sm|]|]; try contradiction. eauto.
  Qed.

  (** effect of giving a tile entry a new cell object *)
  Definition repoint (s : lstate) (t j : nat) (v : C) : lstate :=
    mkLState (s_cells s ++ [v])
             (set_nth (s_tiles s) t (set_nth (tile_cells s t) j (length (s_cells s)))) (s_maps s).

  Section Repoint.
    Variables (s : lstate) (t j : nat) (v : C).
    Hypothesis HW : hwf s.
    Hypothesis Ht : (t < length (s_tiles s))%nat.
    Hypothesis Hj : Z.of_nat j < S_ * S_.
    Let s' := repoint s t j v.
    Lemma rp_tiles_length : length (s_tiles s') = length (s_tiles s).
    Proof. unfold s'. cbn. apply set_nth_length. Qed.
    Lemma rp_tile_cells u : tile_cells s' u =
      if Nat.eqb u t then set_nth (tile_cells s t) j (length (s_cells s)) else tile_cells s u.
    Proof.
      unfold s', repoint. unfold tile_cells at 1. cbn [s_tiles].
      destruct (Nat.eqb_spec u t) as [->|Hne].
      - apply nth_error_nth with (d := []). eapply nth_error_set_eq. apply tile_cells_nth. exact Ht.
      - unfold tile_cells. destruct (Nat.ltb_spec u (length (s_tiles s))) as [L|L].
        + apply nth_error_nth with (d := []). rewrite nth_error_set_ne by auto. apply nth_error_nth'. exact L.
        + rewrite !nth_overflow; auto. rewrite set_nth_length. auto.
    Qed.
    Lemma rp_hwf : hwf s'.
    Proof.
      unfold hwf. rewrite Forall_forall. intros cs Hcs. apply In_nth_error in Hcs. destruct Hcs as [u Hu].
      assert (Hul : (u < length (s_tiles s))%nat).
      { rewrite <- rp_tiles_length. apply nth_error_Some. congruence. }
      assert (E := tile_cells_nth s' u). rewrite rp_tiles_length in E. rewrite (E Hul) in Hu. inversion Hu; subst cs.
      rewrite rp_tile_cells. cbn [s' repoint s_cells]. rewrite app_length. cbn [length].
      destruct (Nat.eqb_spec u t) as [->|Hne].
      - destruct (hwf_tile s t HW Ht) as [A A2]. rewrite set_nth_length. split; auto.
        rewrite Forall_forall. intros p Hp.
        assert (In p (zset (tile_cells s t) (Z.of_nat j) (length (s_cells s)))) as Hp'.
        { unfold zset. rewrite Nat2Z.id. exact Hp. }
        apply In_zset in Hp'. destruct Hp' as [->|Hp']; [lia|]. apply A2 in Hp'. lia.
      - destruct (hwf_tile s u HW Hul) as [A A2]. split; auto.
        rewrite Forall_forall. intros p Hp. apply A2 in Hp. lia.
    Qed.
    Lemma rp_cells_old p : (p < length (s_cells s))%nat -> nth_error (s_cells s') p = nth_error (s_cells s) p.
    Proof. intros H. cbn. apply nth_error_app1. exact H. Qed.
    Lemma rp_tview u jj : (u < length (s_tiles s))%nat ->
      tview s' u jj = if Nat.eqb u t && Nat.eqb jj j then Some v else tview s u jj.
    Proof.
      intros Hu. unfold tview. rewrite rp_tile_cells.
      destruct (Nat.eqb_spec u t) as [->|Hne]; cbn [andb].
      - destruct (hwf_tile s t HW Ht) as [A A2]. rewrite nth_error_set_nth.
        destruct (Nat.eqb_spec jj j) as [->|Hj2].
        + destruct (Nat.ltb_spec j (length (tile_cells s t))); [|lia].
          cbn. rewrite nth_error_app2 by lia. rewrite Nat.sub_diag. reflexivity.
        + destruct (nth_error (tile_cells s t) jj) as [p|] eqn:E; auto.
          apply rp_cells_old. apply A2. eapply nth_error_In; eauto.
      - destruct (nth_error (tile_cells s u) jj) as [p|] eqn:E; auto.
        apply rp_cells_old. apply (hwf_tile s u HW Hu). eapply nth_error_In; eauto.
    Qed.
    Lemma rp_sole ms : linv s ms -> (cell_use_count s' (length (s_cells s)) <= 1)%nat.
    Proof.
      intros HI. unfold cell_use_count, cell_owners. rewrite count_occ_app.
      assert (E0 : count_occ Nat.eq_dec (map l_ucell (live_maps s')) (length (s_cells s)) = 0%nat).
      { apply count_occ_not_In. intros Hin. apply in_map_iff in Hin. destruct Hin as (m & E & Hm).
        change (live_maps s') with (live_maps s) in Hm. apply live_maps_In in Hm. destruct Hm as [i Hm].
        destruct (linv_minv s ms i m HI Hm) as (sm & _ & (_ & _ & _ & _ & proto & HP & _)).
        assert (l_ucell m < length (s_cells s))%nat by (apply nth_error_Some; congruence). lia. }
      rewrite E0. cbn [Nat.add]. rewrite (live_tiles_same s s') by (auto using rp_tiles_length).
      apply (count_flat_one _ _ t); [apply live_tiles_NoDup| |].
      - intros u Hu Hne. rewrite rp_tile_cells. destruct (Nat.eqb_spec u t); [congruence|].
        intros Hin. apply live_tiles_lt in Hu. apply (hwf_tile s u HW Hu) in Hin. lia.
      - rewrite rp_tile_cells, Nat.eqb_refl. apply count_set_fresh. apply (hwf_tile s t HW Ht).
    Qed.
  End Repoint.

  Lemma set_tile_cell_repoint (s : lstate) t ic v :
    set_tile_cell (mkLState (s_cells s ++ [v]) (s_tiles s) (s_maps s)) t (cell_index bits ic) (length (s_cells s))
    = repoint s t (cidx ic) v.
  Proof.
    unfold set_tile_cell, repoint, tile_cells. cbn. rewrite cell_index_cidx. unfold zset. rewrite Nat2Z.id. reflexivity.
  Qed.

  (** step 2: own the cell *)
  Lemma own_cell_spec s ms i sm m c t : linv s ms -> nth_error ms i = Some (Some sm) -> live s i m ->
    in_tiles m (external2internal (l_origin m) c) ->
    nth_error (l_tiles m) (slot m (external2internal (l_origin m) c)) = Some t ->
    exists s' p, own_cell bits s i c = Ok s' /\ linv s' ms /\ s_maps s' = s_maps s /\
      (t < length (s_tiles s'))%nat /\
      cell_ptr bits s' t (external2internal (l_origin m) c) = Ok p /\
      nth_error (tile_cells s' t) (cidx (external2internal (l_origin m) c)) = Some p /\
      nth_error (s_cells s') p = Some (sm_fun sm c) /\
      (cell_use_count s' p <= 1)%nat.
  Proof.
    intros HI Hi HL Hin Ht. destruct (linv_live s ms i sm HI Hi) as (m0 & HL0 & HM).
    assert (m0 = m) by (unfold live in *; congruence). subst m0. clear HL0.
    assert (HMc := HM). destruct HMc as (HG & HU & HBd & HT & proto & HP & HUt & HO & HC).
    set (ic := external2internal (l_origin m) c) in *. assert (HW := proj1 HI).
    assert (Htl : (t < length (s_tiles s))%nat) by (apply HT; right; eapply nth_error_In; eauto).
    destruct (cell_ptr_ok s t ic HW Htl) as (p & Ep & Hp & Hpl).
    assert (Hv : nth_error (s_cells s) p = Some (sm_fun sm c)).
    { assert (E := HC ic Hin). unfold mcell in E. rewrite Ht in E. unfold tview in E. rewrite Hp in E.
      unfold ic in E at 1. rewrite ext_int in E. exact E. }
    unfold own_cell. rewrite (get_map_live s i m HL). cbn [bind]. fold ic.
    rewrite (tile_at_slot m ic t HG Hin Ht). cbn [bind]. rewrite Ep. cbn [bind].
    destruct (Nat.ltb_spec 1 (cell_use_count s p)) as [Hs|Hs].
    2:{ exists s, p. repeat (split; [first [reflexivity|assumption]|]). exact Hs. }
    unfold deref. rewrite Hv. cbn [bind alloc_cell]. rewrite set_tile_cell_repoint.
    set (v := sm_fun sm c) in *.
    assert (Hcx := proj1 (cidx_range ic)).
    assert (VV : forall u jj, (u < length (s_tiles s))%nat -> tview (repoint s t (cidx ic) v) u jj = tview s u jj).
    { intros u jj Hu. rewrite rp_tview by auto.
      destruct (Nat.eqb_spec u t); cbn [andb]; auto. destruct (Nat.eqb_spec jj (cidx ic)); auto. subst.
      unfold tview. rewrite Hp. auto. }
    destruct (cell_ptr_ok (repoint s t (cidx ic) v) t ic) as (p' & Ep' & Hp' & Hpl').
    { apply rp_hwf; auto. }
    { rewrite rp_tiles_length. exact Htl. }
    assert (p' = length (s_cells s)).
    { rewrite rp_tile_cells in Hp' by auto. rewrite Nat.eqb_refl in Hp'.
      erewrite nth_error_set_eq in Hp' by exact Hp. congruence. }
    subst p'.
    exists (repoint s t (cidx ic) v), (length (s_cells s)). split; [reflexivity|]. split.
    { split; [apply rp_hwf; auto|]. split; [apply HI|]. intros a. assert (HIa := proj2 (proj2 HI) a).
      cbn [repoint s_maps]. destruct (nth_error (s_maps s) a) as [[ma|]|] eqn:Ea; auto.
      destruct (nth_error ms a) as [[sma|]|]; auto.
      assert (HIb := HIa). destruct HIb as (_ & _ & _ & HTa & pa & HPa & _).
      apply (minv_heap s); auto.
      - rewrite rp_tiles_length. exact HTa.
      - rewrite rp_cells_old; auto. apply nth_error_Some. congruence. }
    split; [reflexivity|]. split; [rewrite rp_tiles_length; exact Htl|].
    split; [exact Ep'|]. split; [exact Hp'|]. split.
    { cbn. rewrite nth_error_app2 by lia. rewrite Nat.sub_diag. reflexivity. }
    eapply rp_sole; eauto.
  Qed.

  (** an in-place change of one entry of a tile with a single owner changes one coordinate of one map *)
  Lemma sole_write s ms s' i sm m c t v :
    linv s ms -> nth_error ms i = Some (Some sm) -> live s i m -> hcov m c = true ->
    nth_error (l_tiles m) (slot m (external2internal (l_origin m) c)) = Some t -> (tile_use_count s t <= 1)%nat ->
    hwf s' -> s_maps s' = s_maps s -> length (s_tiles s') = length (s_tiles s) ->
    (forall a ma, live s a ma -> nth_error (s_cells s') (l_ucell ma) = nth_error (s_cells s) (l_ucell ma)) ->
    (forall u jj, In u (live_tiles s) -> tview s' u jj =
       if Nat.eqb u t && Nat.eqb jj (cidx (external2internal (l_origin m) c)) then Some v else tview s u jj) ->
    linv s' (put ms i (Some (mkSMap (sm_unb sm) (sm_w sm) (sm_h sm) (t_write (sm_fun sm) c v)))).
  Proof.
    intros HI Hi HL Hc Ht HC HW' EM EL HUc HV.
    destruct (linv_live s ms i sm HI Hi) as (m0 & HL0 & HM).
    assert (m0 = m) by (unfold live in *; congruence). subst m0. clear HL0.
    assert (HS := sole_tile s i m _ t HL Ht HC).
    set (ic := external2internal (l_origin m) c) in *.
    assert (HMc := HM). destruct HMc as (HG & HU & HBd & HT & proto & HP & HUt & HO & HCc).
    assert (Hin : in_tiles m ic) by (apply hcov_in_tiles; auto).
    apply (linv_other s ms s' _ i HI HW').
    - rewrite EM, put_set_nth, set_nth_length. apply HI.
    - intros j Hj. rewrite EM, put_set_nth. split; auto. apply nth_error_set_ne; auto.
    - intros j mj smj Hj HLj HMj. assert (HMj' := HMj). destruct HMj' as (_ & _ & _ & HTj & _).
      apply (minv_heap s); auto.
      + intros u Hu. rewrite EL. auto.
      + intros u jj Hu _. rewrite HV by (eapply owner_live_tile; eauto).
        destruct (Nat.eqb_spec u t) as [->|]; auto. exfalso. destruct (HS j mj HLj) as [H1 H2].
        destruct Hu as [Hu|Hu]; [congruence|]. apply In_nth_error in Hu. destruct Hu as [kk Hk].
        destruct (H2 kk Hk). congruence.
      + eapply HUc; eauto.
    - rewrite EM, put_set_nth. unfold live in HL. rewrite HL. rewrite (nth_error_set_eq _ _ _ _ Hi).
      fold (live s i m) in HL.
      split; [exact HG|]. split; [exact HU|]. split; [exact HBd|]. split.
      { intros u Hu. rewrite EL. auto. }
      exists proto. rewrite (HUc i m HL). split; [exact HP|]. split.
      { intros j Hj. rewrite HV by (eapply owner_live_tile; eauto).
        destruct (Nat.eqb_spec (l_utile m) t) as [E|]; cbn [andb]; auto.
        exfalso. apply (HS i m HL). exact E. }
      cbn [sm_fun]. split.
      { intros d Hd. unfold t_write. destruct (coord_eq_dec d c) as [->|]; auto. congruence. }
      intros ic' Hic'. unfold mcell. destruct (slot_some m ic' HG Hic') as [u Hu]. rewrite Hu.
      rewrite HV.
      2:{ eapply owner_live_tile; eauto; [right|apply HT; right]; eapply nth_error_In; eauto. }
      assert (E0 := HCc ic' Hic'). unfold mcell in E0. rewrite Hu in E0.
      unfold t_write.
      destruct (Nat.eqb_spec u t) as [->|Hne]; cbn [andb].
      + destruct (Nat.eqb_spec (cidx ic') (cidx ic)) as [E|E].
        * assert (ic' = ic).
          { apply (slot_inj m); auto. apply (HS i m HL). exact Hu. }
          subst ic'. unfold ic. rewrite ext_int. destruct (coord_eq_dec c c); congruence.
        * destruct (coord_eq_dec _ c) as [E2|]; auto. exfalso. apply E. f_equal.
          unfold ic. rewrite <- E2, int_ext. reflexivity.
      + destruct (coord_eq_dec _ c) as [E2|]; auto. exfalso. apply Hne.
        assert (ic' = ic) by (unfold ic; rewrite <- E2, int_ext; reflexivity). congruence.
  Qed.

  Lemma ensure_sole_owning_spec s ms i sm m c : linv s ms -> nth_error ms i = Some (Some sm) -> live s i m ->
    hcov m c = true ->
    exists s' m' t p, ensure_sole_owning bits s i c = Ok s' /\ linv s' ms /\ live s' i m' /\
      l_origin m' = l_origin m /\ l_w m' = l_w m /\ l_h m' = l_h m /\ l_unb m' = l_unb m /\ hcov m' c = true /\
      nth_error (l_tiles m') (slot m' (external2internal (l_origin m') c)) = Some t /\
      (tile_use_count s' t <= 1)%nat /\ (t < length (s_tiles s'))%nat /\
      cell_ptr bits s' t (external2internal (l_origin m') c) = Ok p /\
      nth_error (tile_cells s' t) (cidx (external2internal (l_origin m') c)) = Some p /\
      nth_error (s_cells s') p = Some (sm_fun sm c) /\ (cell_use_count s' p <= 1)%nat.
  Proof.
    intros HI Hi HL Hc. destruct (linv_live s ms i sm HI Hi) as (m0 & HL0 & HM).
    assert (m0 = m) by (unfold live in *; congruence). subst m0. clear HL0.
    assert (Hin : in_tiles m (external2internal (l_origin m) c)) by (apply hcov_in_tiles; auto; apply HM).
    destruct (own_tile_spec s ms i sm m c HI Hi HL Hin) as (s1 & m1 & t & E1 & HI1 & HL1 & Eo & Ew & Eh & Eu & Hin1 & Ht & HC1).
    destruct (own_cell_spec s1 ms i sm m1 c t HI1 Hi HL1 Hin1 Ht) as (s2 & p & E2 & HI2 & EM & Htl & Ep & Hp & Hv & HCp).
    exists s2, m1, t, p. unfold ensure_sole_owning. rewrite E1. cbn [bind].
    split; [exact E2|]. split; [exact HI2|]. split.
    { unfold live. rewrite EM. exact HL1. }
    repeat (split; [assumption|]). split.
    { unfold hcov in *. rewrite Eo, Ew, Eh. exact Hc. }
    split; [exact Ht|]. split.
    { unfold tile_use_count, tile_owners, live_maps in *. rewrite EM. exact HC1. }
    repeat (split; [assumption|]). assumption.
  Qed.

  Lemma lazy_reset_spec s ms i sm m c v : linv s ms -> nth_error ms i = Some (Some sm) -> live s i m ->
    hcov m c = true ->
    exists s', lazy_reset bits s i c v = Ok s' /\
      linv s' (put ms i (Some (mkSMap (sm_unb sm) (sm_w sm) (sm_h sm) (t_write (sm_fun sm) c v)))).
  Proof.
    intros HI Hi HL Hc.
    destruct (ensure_sole_owning_spec s ms i sm m c HI Hi HL Hc)
      as (s1 & m1 & t & p & E1 & HI1 & HL1 & Eo & Ew & Eh & Eu & Hc1 & Ht & HC1 & Htl & Ep & Hp & Hv & HCp).
    unfold lazy_reset. rewrite E1. cbn [bind]. rewrite (get_map_live s1 i m1 HL1). cbn [bind].
    destruct (linv_minv s1 ms i m1 HI1 HL1) as (sm1 & Hi1 & HM1).
    set (ic := external2internal (l_origin m1) c) in *.
    assert (HG1 : geo m1) by apply HM1.
    rewrite (tile_at_slot m1 ic t) by (auto; apply hcov_in_tiles; auto). cbn [bind]. rewrite Ep. cbn [bind alloc_cell].
    rewrite set_tile_cell_repoint. eexists. split; [reflexivity|].
    assert (HW := proj1 HI1). assert (Hcx := proj1 (cidx_range ic)).
    apply (sole_write s1 ms _ i sm m1 c t v); auto.
    - apply rp_hwf; auto.
    - apply rp_tiles_length.
    - intros a ma Ha. apply rp_cells_old. destruct (linv_minv s1 ms a ma HI1 Ha) as (sma & _ & (_ & _ & _ & _ & pa & HPa & _)).
      apply nth_error_Some. congruence.
    - intros u jj Hu. apply live_tiles_lt in Hu. apply rp_tview; auto.
  Qed.

  Lemma lazy_update_spec s ms i sm m c o : linv s ms -> nth_error ms i = Some (Some sm) -> live s i m ->
    hcov m c = true ->
    exists s', lazy_update bits cell_upd s i c o = Ok s' /\
      linv s' (put ms i (Some (mkSMap (sm_unb sm) (sm_w sm) (sm_h sm)
                                      (t_write (sm_fun sm) c (cell_upd (sm_fun sm c) o))))).
  Proof.
    intros HI Hi HL Hc.
    destruct (ensure_sole_owning_spec s ms i sm m c HI Hi HL Hc)
      as (s1 & m1 & t & p & E1 & HI1 & HL1 & Eo & Ew & Eh & Eu & Hc1 & Ht & HC1 & Htl & Ep & Hp & Hv & HCp).
    unfold lazy_update. rewrite E1. cbn [bind]. rewrite (get_map_live s1 i m1 HL1). cbn [bind].
    destruct (linv_minv s1 ms i m1 HI1 HL1) as (sm1 & Hi1 & HM1).
    set (ic := external2internal (l_origin m1) c) in *.
    assert (HG1 : geo m1) by apply HM1. assert (Hin1 : in_tiles m1 ic) by (apply hcov_in_tiles; auto).
    assert (Hc1' : has_internal_cell (l_w m1) (l_h m1) ic = true) by exact Hc1.
    rewrite Hc1'. cbn [negb]. rewrite andb_false_r.
    rewrite (tile_at_slot m1 ic t) by auto. cbn [bind]. rewrite Ep. cbn [bind].
    unfold deref. rewrite Hv. cbn [bind]. eexists. split; [reflexivity|].
    assert (HW := proj1 HI1). assert (Hcx := proj1 (cidx_range ic)).
    assert (Htlive : In t (live_tiles s1)).
    { eapply owner_live_tile; eauto. right. eapply nth_error_In; eauto. }
    destruct (sole_cell s1 t (cidx ic) p Htlive Hp HCp) as [SU ST].
    set (v := cell_upd (sm_fun sm c) o).
    apply (sole_write s1 ms _ i sm m1 c t v); auto.
    - unfold hwf in *. cbn. rewrite set_nth_length. exact HW.
    - intros a ma Ha. cbn. apply nth_error_set_ne. intros E. apply (SU a ma Ha). auto.
    - intros u jj Hu. fold ic. unfold tview.
      change (tile_cells (set_cell_value s1 p v) u) with (tile_cells s1 u). cbn [set_cell_value s_cells].
      destruct (nth_error (tile_cells s1 u) jj) as [q|] eqn:Eq.
      + destruct (Nat.eq_dec q p) as [->|Hne].
        * destruct (ST u jj Hu Eq) as [-> ->]. rewrite !Nat.eqb_refl. cbn [andb].
          eapply nth_error_set_eq. exact Hv.
        * rewrite nth_error_set_ne by auto.
          destruct (Nat.eqb_spec u t) as [->|]; cbn [andb]; auto.
          destruct (Nat.eqb_spec jj (cidx ic)) as [->|]; auto. congruence.
      + destruct (Nat.eqb_spec u t) as [->|]; cbn [andb]; auto.
        destruct (Nat.eqb_spec jj (cidx ic)) as [->|]; auto. congruence.
  Qed.

  (** *** growth *)
  Lemma move_rows_spec (old : list nat) tnx tny ntx nty px py :
    0 <= px -> px + tnx <= ntx -> 0 <= py -> py + tny <= nty -> 1 <= tnx -> ntx * nty < 2 ^ 32 ->
    Z.of_nat (length old) = tnx * tny ->
    forall n r new, 0 <= r -> r + Z.of_nat n = tny -> Z.of_nat (length new) = ntx * nty ->
    exists new', move_rows old tnx ntx px py r n new = Ok new' /\ Z.of_nat (length new') = ntx * nty /\
      forall tx ty, 0 <= tx < ntx -> 0 <= ty < nty ->
        znth new' (ty * ntx + tx) =
        if (py + r <=? ty) && (ty <? py + tny) && ((px <=? tx) && (tx <? px + tnx))
        then znth old ((ty - py) * tnx + (tx - px)) else znth new (ty * ntx + tx).
  Proof.
    intros Hpx Hntx Hpy Hnty Ht1 H32 HLo. induction n as [|n IH]; intros r new Hr Hrn HLn.
    - exists new. split; [reflexivity|]. split; [exact HLn|]. intros tx ty Htx Hty.
      destruct (Z.leb_spec (py + r) ty), (Z.ltb_spec ty (py + tny)); cbn [andb]; auto. lia.
    - cbn [move_rows]. set (row := firstn (Z.to_nat tnx) (skipn (Z.to_nat (r * tnx)) old)).
      assert (Hrt : 0 <= r * tnx /\ r * tnx + tnx <= tnx * tny) by nia.
      assert (HLr : Z.of_nat (length row) = tnx).
      { unfold row. rewrite firstn_length, skipn_length. lia. }
      assert (Hoff : 0 <= (py + r) * ntx + px /\ (py + r) * ntx + px + tnx <= ntx * nty) by nia.
      rewrite u32_id by lia.
      destruct (splice_row_spec ((py + r) * ntx + px) row new) as (new1 & E1 & HL1 & HN1); try lia.
      rewrite E1. cbn [bind].
      destruct (IH (r + 1) new1) as (new' & E' & HL' & HN'); try lia.
      exists new'. split; [exact E'|]. split; [exact HL'|].
      intros tx ty Htx Hty. rewrite HN' by auto.
      assert (Hidx : 0 <= ty * ntx + tx) by nia.
      rewrite (HN1 (ty * ntx + tx) Hidx). rewrite HLr.
      destruct (Z.eq_dec ty (py + r)) as [->|Hne].
      + destruct (Z.leb_spec (py + (r + 1)) (py + r)); [lia|]. cbn [andb].
        destruct (Z.leb_spec (py + r) (py + r)); [|lia]. destruct (Z.ltb_spec (py + r) (py + tny)); [|lia]. cbn [andb].
        destruct (Z.leb_spec px tx), (Z.ltb_spec tx (px + tnx)); cbn [andb].
        * destruct (Z.ltb_spec ((py + r) * ntx + tx) ((py + r) * ntx + px)); [lia|].
          destruct (Z.leb_spec ((py + r) * ntx + px + tnx) ((py + r) * ntx + tx)); [lia|]. cbn [orb].
          unfold row. rewrite !znth_nth by lia.
          replace ((py + r) * ntx + tx - ((py + r) * ntx + px)) with (tx - px) by lia.
          replace ((py + r - py) * tnx + (tx - px)) with (r * tnx + (tx - px)) by nia.
          clear - Hrt H3 H4 HLo HLr Ht1. 
          assert (Hs : forall (l : list nat) a b, (b < a)%nat -> nth_error (firstn a l) b = nth_error l b).
          { clear. induction l; intros [|a'] [|b'] H; cbn; auto; try lia. apply IHl. lia. }
          assert (Hk : forall (l : list nat) a b, nth_error (skipn a l) b = nth_error l (a + b)).
          { clear. induction l; intros [|a'] b; cbn; auto. destruct b; auto. }
          rewrite Hs, Hk by lia. f_equal. lia.
        * destruct (Z.ltb_spec ((py + r) * ntx + tx) ((py + r) * ntx + px)); [lia|].
          destruct (Z.leb_spec ((py + r) * ntx + px + tnx) ((py + r) * ntx + tx)); [|lia]. reflexivity.
        * destruct (Z.ltb_spec ((py + r) * ntx + tx) ((py + r) * ntx + px)); [|lia]. reflexivity.
        * lia.
      + assert (E : (ty * ntx + tx <? (py + r) * ntx + px) || ((py + r) * ntx + px + tnx <=? ty * ntx + tx) = true).
        { apply orb_true_iff. rewrite Z.ltb_lt, Z.leb_le.
          destruct (Z_lt_ge_dec ty (py + r)); [left|right].
          - assert ((ty + 1) * ntx <= (py + r) * ntx) by (apply Z.mul_le_mono_nonneg_r; lia). lia.
          - assert ((py + r + 1) * ntx <= ty * ntx) by (apply Z.mul_le_mono_nonneg_r; lia). lia. }
        rewrite E.
        destruct (Z.leb_spec (py + (r + 1)) ty), (Z.leb_spec (py + r) ty); cbn [andb]; auto; lia.
  Qed.

  Lemma extra_tiles_spec v w T o c : 1 <= w <= T -> v = c + o -> lax o w T -> -M <= c <= M ->
    exists prep app, extra_tiles_nm bits 0 v w = Ok (prep, app) /\ 0 <= prep < 2 ^ 17 /\ 0 <= app < 2 ^ 17 /\
      0 <= v + prep * S_ < T + prep * S_ + app * S_ /\
      lax (o + prep * S_) (T + prep * S_ + app * S_) (T + prep * S_ + app * S_).
  Proof.
    intros Hw Ev (L1 & L2 & L3 & L4) Hc. assert (P := S_pos). assert (P2 := S_le).
    assert (HE : EXT < 2 ^ 15 * S_).
    { rewrite Z.pow_add_r in HB by lia. replace (2 ^ 16) with (2 * 2 ^ 15) in HB by reflexivity. nia. }
    unfold extra_tiles_nm. destruct (Z.leb_spec 0 w); [|lia]. cbn [assert_ bind].
    rewrite !Z.shiftr_div_pow2 by lia.
    assert (Q : forall a, 0 <= a <= EXT + EXT -> 0 <= a / S_ < 2 ^ 16 /\ a / S_ * S_ <= a < a / S_ * S_ + S_).
    { intros a Ha. assert (D := Z.div_mod a S_). assert (MM := Z.mod_pos_bound a S_).
      assert (0 <= a / S_) by (apply Z.div_pos; lia). split; [|nia].
      split; auto. apply Z.div_lt_upper_bound; [lia|]. replace (2 ^ 16) with (2 * 2 ^ 15) by reflexivity. nia. }
    assert (P17 : 2 ^ 17 = 2 * 2 ^ 16) by reflexivity. assert (P32 : 2 ^ 32 = 2 ^ 16 * 2 ^ 16) by reflexivity.
    assert (V16 : 2 ^ 16 = 65536) by reflexivity.
    destruct (Z.ltb_spec v 0).
    - destruct (Q (0 - v)) as [Q1 Q2]; [lia|]. set (q := (0 - v) / S_) in *.
      rewrite u32_id by lia. exists (1 + q), 0. split; [reflexivity|]. unfold lax. repeat split; try lia; nia.
    - destruct (Z.leb_spec w v).
      + destruct (Q (v - w)) as [Q1 Q2]; [lia|]. set (q := (v - w) / S_) in *.
        rewrite u32_id by lia. exists 0, (1 + q). split; [reflexivity|]. unfold lax. repeat split; try lia; nia.
      + exists 0, 0. split; [reflexivity|]. unfold lax. repeat split; lia.
  Qed.

  Lemma lax_T o w T : lax o w T -> T <= 2 * EXT.
  Proof. unfold lax. lia. Qed.

  Lemma tiles_lt16 n : n * S_ <= 2 * EXT -> n < 2 ^ 16.
  Proof.
    intros H. assert (P := S_pos). rewrite Z.pow_add_r in HB by lia. nia.
  Qed.
  Lemma ext_31 z : z <= 2 * EXT -> z < 2 ^ 31.
  Proof.
    intros H. assert (2 ^ (16 + bits) <= 2 ^ 31) by (apply Z.pow_le_mono_r; lia). lia.
  Qed.

  Lemma div_shift x p : (x + p * S_) / S_ = x / S_ + p.
  Proof. assert (P := S_pos). apply Z.div_add. lia. Qed.
  Lemma mod_shift x p : (x + p * S_) mod S_ = x mod S_.
  Proof. assert (P := S_pos). apply Z.mod_add. lia. Qed.

  Lemma lazy_grow_spec s m sm c : hwf s -> minv s m sm -> l_unb m = true -> within M c ->
    exists m', lazy_ensure_inside bits m c = Ok m' /\ minv s m' sm /\ l_unb m' = true /\ hcov m' c = true.
  Proof.
    intros HW HM HU [Hcx Hcy]. change (fst c) with (cx c) in Hcx. change (snd c) with (cy c) in Hcy.
    unfold lazy_ensure_inside. cbv zeta.
    destruct (has_internal_cell (l_w m) (l_h m) (external2internal (l_origin m) c)) eqn:HI.
    { exists m. split; [reflexivity|]. split; [exact HM|]. split; [exact HU|]. exact HI. }
    assert (HMc := HM). destruct HMc as (HG & HUs & HBd & HT & proto & HP & HUt & HO & HC).
    assert (HGc := HG). destruct HGc as (T1 & T2 & T3 & HL & Hw & Hh & LX & LY).
    set (ic := external2internal (l_origin m) c) in *.
    destruct (extra_tiles_spec (cx ic) (l_w m) (l_tnx m * S_) (cx (l_origin m)) (cx c)) as (px & ax & Ex & Rpx & Rax & Ix & LX'); auto.
    destruct (extra_tiles_spec (cy ic) (l_h m) (l_tny m * S_) (cy (l_origin m)) (cy c)) as (py & ay & Ey & Rpy & Ray & Iy & LY'); auto.
    rewrite Ex. cbn [bind]. rewrite Ey. cbn [bind].
    assert (P := S_pos).
    replace (l_tnx m * S_ + px * S_ + ax * S_) with ((px + l_tnx m + ax) * S_) in * by ring.
    replace (l_tny m * S_ + py * S_ + ay * S_) with ((py + l_tny m + ay) * S_) in * by ring.
    set (ntx := px + l_tnx m + ax) in *. set (nty := py + l_tny m + ay) in *.
    assert (Bx := lax_T _ _ _ LX'). assert (By := lax_T _ _ _ LY').
    assert (Hx16 := tiles_lt16 _ Bx). assert (Hy16 := tiles_lt16 _ By).
    assert (V16 : 2 ^ 16 = 65536) by reflexivity. assert (V32 : 2 ^ 32 = 65536 * 65536) by reflexivity.
    assert (V31 : 2 ^ 31 = 2147483648) by reflexivity.
    rewrite (u32_id ntx), (u32_id nty) by lia.
    destruct (Z.leb_spec (l_tnx m) ntx); [|lia]. destruct (Z.leb_spec (l_tny m) nty); [|lia]. cbn [andb assert_ bind].
    assert (Hprod : 1 <= ntx * nty < 2 ^ 32) by nia.
    rewrite (u32_id (ntx * nty)) by lia.
    destruct (move_rows_spec (l_tiles m) (l_tnx m) (l_tny m) ntx nty px py) with
      (n := Z.to_nat (l_tny m)) (r := 0) (new := repeat (l_utile m) (Z.to_nat (ntx * nty)))
      as (tiles & Et & HLt & Hnt); try lia.
    { rewrite repeat_length. lia. }
    rewrite Et. cbn [bind]. rewrite !tile_size_S.
    assert (Bx31 := ext_31 _ Bx). assert (By31 := ext_31 _ By).
    assert (Hpx31 : 0 <= px * S_ < 2 ^ 31).
    { assert (0 <= px * S_ <= ntx * S_) by (clear - Rpx Rax T1 P; nia). lia. }
    assert (Hpy31 : 0 <= py * S_ < 2 ^ 31).
    { assert (0 <= py * S_ <= nty * S_) by (clear - Rpy Ray T2 P; nia). lia. }
    assert (Hxn : 0 <= ntx * S_) by lia. assert (Hyn : 0 <= nty * S_) by lia.
    rewrite (u32_id (ntx * S_)), (u32_id (nty * S_)), (u32_id (px * S_)), (u32_id (py * S_)) by lia.
    rewrite (wrap32_id (ntx * S_)), (wrap32_id (nty * S_)), (wrap32_id (px * S_)), (wrap32_id (py * S_)) by lia.
    set (m' := mkLMap _ _ _ _ _ _ _ _ _).
    assert (Hc' : hcov m' c = true).
    { unfold hcov. apply has_internal_iff. cbn. unfold ic in Ix, Iy. cbn in Ix, Iy. lia. }
    unfold hcov in Hc'. rewrite Hc'. cbn [assert_ bind]. fold (hcov m' c) in Hc'.
    exists m'. split; [reflexivity|]. split; [|split; [exact HU|exact Hc']].
    assert (HG' : geo m').
    { assert (A1 : 1 <= ntx) by lia. assert (A2 : 1 <= nty) by lia.
      assert (A3 : 1 <= ntx * S_) by (clear - A1 P; nia). assert (A4 : 1 <= nty * S_) by (clear - A2 P; nia).
      unfold geo. cbn [m' l_tnx l_tny l_tiles l_w l_h l_origin].
      split; [exact A1|]. split; [exact A2|]. split; [apply Hprod|]. split; [exact HLt|].
      split; [split; [exact A3|apply Z.le_refl]|]. split; [split; [exact A4|apply Z.le_refl]|].
      split; [exact LX'|exact LY']. }
    (* where the tiles are *)
    assert (HNT : forall tx ty, 0 <= tx < ntx -> 0 <= ty < nty ->
      nth_error tiles (Z.to_nat (ty * ntx + tx)) =
      if (py <=? ty) && (ty <? py + l_tny m) && ((px <=? tx) && (tx <? px + l_tnx m))
      then nth_error (l_tiles m) (Z.to_nat ((ty - py) * l_tnx m + (tx - px))) else Some (l_utile m)).
    { intros tx ty Htx Hty. assert (E := Hnt tx ty Htx Hty). rewrite Z.add_0_r in E.
      assert (Hidx : 0 <= ty * ntx + tx < ntx * nty) by (clear - Htx Hty; nia).
      rewrite (znth_repeat (l_utile m)) in E by lia.
      rewrite znth_nth in E by lia. rewrite E.
      destruct (Z.leb_spec py ty), (Z.ltb_spec ty (py + l_tny m)), (Z.leb_spec px tx), (Z.ltb_spec tx (px + l_tnx m)); cbn [andb]; auto.
      rewrite znth_nth; [reflexivity|]. clear - H1 H3 T1; nia. }
    assert (HTin : forall t, In t tiles -> t = l_utile m \/ In t (l_tiles m)).
    { intros t Hin. apply In_nth_error in Hin. destruct Hin as [n Hn].
      assert (Hnl : (n < length tiles)%nat) by (apply nth_error_Some; congruence).
      assert (D := Z.div_mod (Z.of_nat n) ntx). assert (MM := Z.mod_pos_bound (Z.of_nat n) ntx).
      assert (A1 : 1 <= ntx) by lia.
      assert (Z.of_nat n / ntx < nty) by (apply Z.div_lt_upper_bound; [lia|clear - Hnl HLt; lia]).
      assert (0 <= Z.of_nat n / ntx) by (apply Z.div_pos; lia).
      assert (E := HNT (Z.of_nat n mod ntx) (Z.of_nat n / ntx)).
      replace (Z.of_nat n / ntx * ntx + Z.of_nat n mod ntx) with (Z.of_nat n) in E by (clear - D A1; rewrite D at 1 by lia; ring).
      rewrite Nat2Z.id, Hn in E. specialize (E ltac:(apply MM; lia) ltac:(lia)).
      destruct (_ && _).
      - right. symmetry in E. eapply nth_error_In; eauto.
      - left. congruence. }
    split; [exact HG'|]. split; [exact HUs|]. split.
    { cbn [m' l_unb]. intros E. congruence. }
    split.
    { cbn [m' l_utile l_tiles]. intros t [Hin|Hin]; apply HT; auto. }
    exists proto. split; [exact HP|]. split; [exact HUt|].
    assert (Hmono : forall d, hcov m d = true -> hcov m' d = true).
    { intros d Hd. apply has_internal_iff in Hd. apply has_internal_iff.
      unfold external2internal, coord_add, cx, cy in Hd |- *. cbn [m' l_origin fst snd l_w l_h] in Hd |- *.
      assert (A1 : px * S_ + l_tnx m * S_ <= ntx * S_) by (clear - Rax P; nia).
      assert (A2 : py * S_ + l_tny m * S_ <= nty * S_) by (clear - Ray P; nia).
      unfold coord_add, cx, cy; cbn [fst snd]. clear - Hd A1 A2 Hpx31 Hpy31 Hw Hh. lia. }
    split.
    { intros d Hd. apply HO. destruct (hcov m d) eqn:E; auto. rewrite (Hmono d E) in Hd. discriminate. }
    intros ic' [Hx' Hy']. cbn [m' l_tnx l_tny] in Hx', Hy'.
    assert (Dx := tdiv_range _ _ Hx'). assert (Dy := tdiv_range _ _ Hy').
    unfold mcell, slot. cbn [m' l_tnx l_tiles l_origin]. rewrite HNT by auto.
    set (jc := (cx ic' - px * S_, cy ic' - py * S_) : coord).
    assert (Ejx : cx ic' / S_ - px = cx jc / S_).
    { replace (cx ic') with (cx jc + px * S_) by (cbn; lia). rewrite div_shift. lia. }
    assert (Ejy : cy ic' / S_ - py = cy jc / S_).
    { replace (cy ic') with (cy jc + py * S_) by (cbn; lia). rewrite div_shift. lia. }
    assert (Eci : cidx ic' = cidx jc).
    { unfold cidx. replace (cx ic') with (cx jc + px * S_) by (cbn; lia). replace (cy ic') with (cy jc + py * S_) by (cbn; lia).
      rewrite !mod_shift. reflexivity. }
    assert (Eext : internal2external (coord_add (l_origin m) (px * S_, py * S_)) ic' = internal2external (l_origin m) jc).
    { unfold internal2external, coord_sub, coord_add, jc; cbn. f_equal; lia. }
    rewrite Eext.
    destruct (Z.leb_spec py (cy ic' / S_)) as [a1|a1], (Z.ltb_spec (cy ic' / S_) (py + l_tny m)) as [a2|a2],
             (Z.leb_spec px (cx ic' / S_)) as [a3|a3], (Z.ltb_spec (cx ic' / S_) (px + l_tnx m)) as [a4|a4]; cbn [andb].
    1:{ assert (Hjin : in_tiles m jc).
        { assert (A := Z.div_mod (cx jc) S_). assert (A2 := Z.div_mod (cy jc) S_).
          assert (A3 := Z.mod_pos_bound (cx jc) S_). assert (A4 := Z.mod_pos_bound (cy jc) S_).
          unfold in_tiles. clear - A A2 A3 A4 a1 a2 a3 a4 Ejx Ejy P. split; nia. }
        rewrite Ejx, Ejy. fold (slot m jc). rewrite Eci. exact (HC jc Hjin). }
    all: rewrite HUt by apply cidx_range; f_equal; symmetry; apply HO.
    all: destruct (hcov m (internal2external (l_origin m) jc)) eqn:E; auto; exfalso.
    all: apply hcov_in_tiles in E; auto; rewrite int_ext in E; destruct E as [E1 E2].
    all: apply tdiv_range in E1; apply tdiv_range in E2; lia.
  Qed.

  Lemma prepare_spec s ms i sm c : linv s ms -> nth_error ms i = Some (Some sm) -> valid_coord sm c -> within M c ->
    exists s' m, prepare bits s i c = Ok s' /\ linv s' ms /\ live s' i m /\ hcov m c = true.
  Proof.
    intros HI Hi Hv Hc. destruct (linv_get s ms i sm HI Hi) as (m & E & HL & HM).
    unfold prepare. rewrite E. cbn [bind]. destruct (l_unb m) eqn:EU.
    - destruct (lazy_grow_spec s m sm c (proj1 HI) HM EU Hc) as (m' & E' & HM' & EU' & Hc').
      rewrite E'. cbn [bind]. exists (set_map s i (Some m')), m'. split; [reflexivity|].
      assert (HL' : live (set_map s i (Some m')) i m') by (unfold live; cbn; eapply nth_error_set_eq; exact HL).
      split; [|split; [exact HL'|exact Hc']].
      apply (linv_other s ms _ ms i HI).
      + exact (proj1 HI).
      + cbn. rewrite set_nth_length. apply HI.
      + intros j Hj. split; auto. cbn. apply nth_error_set_ne. auto.
      + intros j mj smj Hj HLj HMj. exact HMj.
      + unfold live in HL'. rewrite HL', Hi. exact HM'.
    - exists s, m. split; [reflexivity|]. split; [exact HI|]. split; [exact HL|].
      assert (HMc := HM). destruct HMc as (_ & HU & HBd & _). destruct (HBd EU) as (E1 & E2 & E3).
      unfold hcov. rewrite E3. apply has_internal_iff.
      assert (binside (sm_w sm) (sm_h sm) c) as Hb by (apply Hv; congruence).
      rewrite <- E1, <- E2 in Hb. unfold binside in Hb.
      unfold external2internal, coord_add, cx, cy in *; cbn [fst snd]; lia.
  Qed.

  (** *** programs *)
  Definition sop_lop (op : sop C Ob) : lop C Ob :=
    match op with
    | SCreate unb proto w h => LCreate unb proto w h
    | SCopy i => LCopy i
    | SAssign i j => LAssign i j
    | SDestroy i => LDestroy i
    | SWrite i (WObserve c o) => LUpdate i c o
    | SWrite i (WReplace c v) => LReset i c v
    end.

  Lemma linv_set s ms i m sm : linv s ms -> (i < length ms)%nat ->
    match m, sm with Some m, Some sm => minv s m sm | None, None => True | _, _ => False end ->
    linv (set_map s i m) (put ms i sm).
  Proof.
    intros HI Hi Hm. assert (HLe := proj1 (proj2 HI)). rewrite put_set_nth.
    apply (linv_other s ms _ _ i HI).
    - exact (proj1 HI).
    - cbn. rewrite !set_nth_length. exact HLe.
    - intros j Hj. cbn. split; apply nth_error_set_ne; auto.
    - intros j mj smj _ _ H. exact H.
    - cbn. rewrite !nth_error_set_nth, Nat.eqb_refl.
      destruct (Nat.ltb_spec i (length (s_maps s))); [|lia]. destruct (Nat.ltb_spec i (length ms)); [|lia].
      destruct m, sm; auto.
  Qed.

  Lemma linv_app s ms m sm : linv s ms -> minv s m sm ->
    linv (mkLState (s_cells s) (s_tiles s) (s_maps s ++ [Some m])) (ms ++ [Some sm]).
  Proof.
    intros (HW & HLe & HI) HM. split; [exact HW|]. split.
    { cbn. rewrite !app_length. cbn. lia. }
    intros i. cbn [s_maps]. specialize (HI i).
    destruct (Nat.lt_trichotomy i (length ms)) as [L|[L|L]].
    - rewrite !nth_error_app1 by lia. exact HI.
    - rewrite !nth_error_app2 by lia. rewrite HLe, L, Nat.sub_diag. cbn. exact HM.
    - replace (nth_error (s_maps s ++ [Some m]) i) with (@None (option lmap)).
      2:{ symmetry. apply nth_error_None. rewrite app_length. cbn. lia. }
      replace (nth_error (ms ++ [Some sm]) i) with (@None (option (smap C))); auto.
      symmetry. apply nth_error_None. rewrite app_length. cbn. lia.
  Qed.

  Lemma lcreate_spec s ms unb proto w h : linv s ms -> 1 <= w <= K -> 1 <= h <= K ->
    exists s', lstep bits cell_upd s (LCreate unb proto w h) = Ok s' /\
      linv s' (ms ++ [Some (mkSMap unb w h (t_init proto))]).
  Proof.
    intros HI Hw Hh. cbn [lstep alloc_cell alloc_tile s_cells s_tiles s_maps]. rewrite !tile_size_S.
    assert (P := S_pos). assert (P2 := S_le). assert (P15 : 2 ^ 15 = 32768) by reflexivity.
    assert (B31 : 2 * EXT < 2 ^ 31).
    { assert (2 ^ (16 + bits) <= 2 ^ 31) by (apply Z.pow_le_mono_r; lia). lia. }
    assert (V31 : 2 ^ 31 = 2147483648) by reflexivity. assert (V32 : 2 ^ 32 = 4294967296) by reflexivity.
    rewrite !(u32_id (w + S_ - 1)), !(u32_id (h + S_ - 1)) by lia.
    assert (Q : forall n, 1 <= n <= K -> 1 <= (n + S_ - 1) / S_ /\ n <= (n + S_ - 1) / S_ * S_ < n + S_).
    { intros n Hn. assert (D := Z.div_mod (n + S_ - 1) S_). assert (MM := Z.mod_pos_bound (n + S_ - 1) S_).
      assert (1 <= (n + S_ - 1) / S_) by (apply Z.div_le_lower_bound; lia). split; [auto|]. nia. }
    destruct (Q w Hw) as [Qw1 Qw2]. destruct (Q h Hh) as [Qh1 Qh2].
    set (tnx := (w + S_ - 1) / S_) in *. set (tny := (h + S_ - 1) / S_) in *.
    assert (Bx : tnx * S_ <= 2 * EXT) by lia. assert (By : tny * S_ <= 2 * EXT) by lia.
    assert (Hx16 := tiles_lt16 _ Bx). assert (Hy16 := tiles_lt16 _ By).
    assert (V16 : 2 ^ 16 = 65536) by reflexivity.
    assert (Hprod : 1 <= tnx * tny < 2 ^ 32) by nia.
    rewrite (u32_id (tnx * tny)) by lia.
    set (uc := length (s_cells s)). set (ut := length (s_tiles s)).
    set (tl := repeat uc (Z.to_nat (S_ * S_))).
    set (s1 := mkLState (s_cells s ++ [proto]) (s_tiles s ++ [tl]) (s_maps s)).
    set (m := mkLMap _ _ _ _ _ _ _ _ _).
    exists (mkLState (s_cells s1) (s_tiles s1) (s_maps s1 ++ [Some m])). split; [reflexivity|].
    assert (HW := proj1 HI).
    assert (HSS : 1 <= S_ * S_) by nia.
    assert (HW1 : hwf s1).
    { unfold hwf. cbn. rewrite app_length. cbn [length]. apply Forall_app. split.
      - unfold hwf in HW. eapply Forall_impl; [|exact HW]. cbn. intros t [A1 A2]. split; auto.
        eapply Forall_impl; [|exact A2]. cbn. intros; lia.
      - constructor; auto. unfold tl. rewrite repeat_length. split; [lia|].
        rewrite Forall_forall. intros p Hp. apply repeat_spec in Hp. subst p. unfold uc. lia. }
    assert (TC : forall u, (u < length (s_tiles s))%nat -> tile_cells s1 u = tile_cells s u).
    { intros u Hu. unfold tile_cells. cbn. apply app_nth1. exact Hu. }
    assert (TU : tile_cells s1 ut = tl).
    { unfold tile_cells. cbn. rewrite app_nth2 by (unfold ut; lia). unfold ut. rewrite Nat.sub_diag. reflexivity. }
    assert (TV : forall j, Z.of_nat j < S_ * S_ -> tview s1 ut j = Some proto).
    { intros j Hj. unfold tview. rewrite TU. unfold tl. rewrite nth_error_repeat by lia. cbn.
      unfold uc. rewrite nth_error_app2 by lia. rewrite Nat.sub_diag. reflexivity. }
    apply linv_app.
    - split; [exact HW1|]. split; [apply HI|]. intros a. assert (HIa := proj2 (proj2 HI) a).
      cbn [s1 s_maps]. destruct (nth_error (s_maps s) a) as [[ma|]|] eqn:Ea; auto.
      destruct (nth_error ms a) as [[sma|]|]; auto.
      assert (HIb := HIa). destruct HIb as (_ & _ & _ & HTa & pa & HPa & _).
      apply (minv_heap s); auto.
      + intros t Ht. cbn. rewrite app_length. specialize (HTa t Ht). lia.
      + intros t j Ht Hj. unfold tview. rewrite TC by auto.
        destruct (nth_error (tile_cells s t) j) as [p|] eqn:Ep; auto. cbn. apply nth_error_app1.
        apply (hwf_tile s t HW); auto. eapply nth_error_In; eauto.
      + cbn. apply nth_error_app1. apply nth_error_Some. congruence.
    - assert (Hq : forall n, 1 <= n -> 0 <= Z.quot n 2 <= n /\ Z.quot n 2 = n / 2).
      { intros n Hn. split; [split; [apply Z.quot_pos; lia|apply Z.quot_le_upper_bound; lia]|].
        apply Z.quot_div_nonneg; lia. }
      destruct (Hq w ltac:(lia)) as [Hq1 Hq2]. destruct (Hq h ltac:(lia)) as [Hq3 Hq4].
      assert (HG : geo m).
      { unfold geo, lax. cbn [m l_tnx l_tny l_tiles l_w l_h l_origin default_origin cx cy fst snd].
        rewrite repeat_length. repeat split; try lia. }
      split; [exact HG|]. split; [reflexivity|]. split.
      { intros _. cbn. unfold default_origin. rewrite Hq2, Hq4. auto. }
      split.
      { cbn [m l_utile l_tiles]. intros t Ht. cbn. rewrite app_length. cbn [length].
        destruct Ht as [->|Ht]; [unfold ut; lia|]. apply repeat_spec in Ht. subst t. unfold ut; lia. }
      exists proto. split.
      { cbn. unfold uc. rewrite nth_error_app2 by lia. rewrite Nat.sub_diag. reflexivity. }
      split; [exact TV|]. split; [reflexivity|].
      intros ic Hic. unfold mcell. destruct (slot_some m ic HG Hic) as [t Ht]. rewrite Ht.
      assert (t = ut) by (apply nth_error_In in Ht; apply repeat_spec in Ht; exact Ht). subst t.
      rewrite TV by apply cidx_range. reflexivity.
  Qed.

  Lemma lstep_spec s ms op ms' : linv s ms -> sstep cell_upd ms op ms' -> sop_within M K op ->
    exists s', lstep bits cell_upd s (sop_lop op) = Ok s' /\ linv s' ms'.
  Proof.
    intros HI Hst Hok. destruct Hst as [ms unb proto w h|ms i m Hi|ms i j mi mj Hi Hj|ms i m Hi|ms i m w Hi Hv].
    - apply lcreate_spec; auto; apply Hok.
    - destruct (linv_get s ms i m HI Hi) as (lm & E & HL & HM). cbn [sop_lop lstep]. rewrite E. cbn [bind].
      eexists. split; [reflexivity|]. apply linv_app; auto.
    - destruct (linv_get s ms i mi HI Hi) as (lmi & Ei & HLi & HMi).
      destruct (linv_get s ms j mj HI Hj) as (lmj & Ej & HLj & HMj).
      cbn [sop_lop lstep]. rewrite Ei. cbn [bind]. rewrite Ej. cbn [bind].
      eexists. split; [reflexivity|]. apply linv_set; auto. apply nth_error_Some. congruence.
    - destruct (linv_get s ms i m HI Hi) as (lm & E & HL & HM). cbn [sop_lop lstep]. rewrite E. cbn [bind].
      eexists. split; [reflexivity|]. apply linv_set; auto. apply nth_error_Some. congruence.
    - destruct w as [c o|c v]; cbn [w_coord] in Hv; cbn [sop_within w_coord] in Hok; cbn [sop_lop lstep].
      + destruct (prepare_spec s ms i m c HI Hi Hv Hok) as (s1 & lm & E1 & HI1 & HL1 & Hc1).
        rewrite E1. cbn [bind]. exact (lazy_update_spec s1 ms i m lm c o HI1 Hi HL1 Hc1).
      + destruct (prepare_spec s ms i m c HI Hi Hv Hok) as (s1 & lm & E1 & HI1 & HL1 & Hc1).
        rewrite E1. cbn [bind]. exact (lazy_reset_spec s1 ms i m lm c v HI1 Hi HL1 Hc1).
  Qed.

  Lemma lrun_spec ops : forall s ms ms', linv s ms -> sruns cell_upd ms ops ms' ->
    Forall (sop_within M K) ops ->
    exists s', lrun bits cell_upd s (map sop_lop ops) = Ok s' /\ linv s' ms'.
  Proof.
    induction ops as [|op ops IH]; intros s ms ms' HI Hr Hok; inversion Hr; subst.
    - exists s. split; auto.
    - inversion Hok; subst. destruct (lstep_spec s ms op ms1 HI) as (s1 & E1 & HI1); auto.
      destruct (IH s1 ms1 ms' HI1) as (s2 & E2 & HI2); auto.
      exists s2. cbn [map lrun]. rewrite E1. cbn [bind]. auto.
  Qed.

  Theorem lazy_maps_independent ops ms :
    sruns cell_upd [] ops ms -> Forall (sop_within M K) ops ->
    exists s, lrun bits cell_upd lempty (map sop_lop ops) = Ok s /\
      length (s_maps s) = length ms /\
      forall i sm, nth_error ms i = Some (Some sm) ->
        forall c, valid_coord sm c -> lread bits s i c = Ok (sm_fun sm c).
  Proof.
    intros Hr Hok. destruct (lrun_spec ops lempty [] ms) as (s & E & HI); auto.
    { split; [constructor|]. split; [reflexivity|]. intros i. destruct i; exact I. }
    exists s. split; [exact E|]. split; [apply HI|]. intros i sm Hi c Hc.
    destruct (linv_get s ms i sm HI Hi) as (m & Em & HL & HM).
    unfold lread. rewrite Em. cbn [bind]. apply minv_reads; auto. exact (proj1 HI).
  Qed.
End Lazy.

(** *** out-of-range access to the bounded map (C10) *)
Section Alias.
  Variable bits : Z.
  Hypothesis bits_ok : 0 <= bits.
  Let S_ := 2 ^ bits.

  (** the coordinate inside the tile area an access really goes to *)
  Definition alias (m : lmap) (ic : coord) : coord :=
    let k := tile_index bits m ic in
    (k mod l_tnx m * S_ + cx ic mod S_, k / l_tnx m * S_ + cy ic mod S_).

  Lemma access_alias {C} (s : lstate C) m ic : 1 <= l_tnx m -> l_tnx m * l_tny m < 2 ^ 32 ->
    Z.of_nat (length (l_tiles m)) = l_tnx m * l_tny m ->
    (tile_at bits m ic = UB /\ lcell_internal bits s m ic = UB) \/
    (0 <= cx (alias m ic) < l_tnx m * S_ /\ 0 <= cy (alias m ic) < l_tny m * S_ /\
     tile_at bits m ic = tile_at bits m (alias m ic) /\ cell_index bits ic = cell_index bits (alias m ic) /\
     lcell_internal bits s m ic = lcell_internal bits s m (alias m ic)).
  Proof.
    intros Hx H32 HL. assert (P : 1 <= S_) by (unfold S_; assert (0 < 2 ^ bits) by (apply Z.pow_pos_nonneg; lia); lia).
    set (k := tile_index bits m ic).
    assert (Hk0 : 0 <= k) by (unfold k, tile_index, u32; apply Z.mod_pos_bound; lia).
    destruct (Z_lt_ge_dec k (l_tnx m * l_tny m)) as [Hk|Hk].
    2:{ left. assert (E : tile_at bits m ic = UB).
        { unfold tile_at. fold k. rewrite znth_nth by auto.
          destruct (nth_error (l_tiles m) (Z.to_nat k)) eqn:E; auto.
          assert (Z.to_nat k < length (l_tiles m))%nat by (apply nth_error_Some; congruence). lia. }
        split; auto. unfold lcell_internal. rewrite E. reflexivity. }
    right.
    assert (Mx := Z.mod_pos_bound (cx ic) S_). assert (My := Z.mod_pos_bound (cy ic) S_).
    assert (Mk := Z.mod_pos_bound k (l_tnx m)). assert (Dk := Z.div_mod k (l_tnx m)).
    assert (Hd : 0 <= k / l_tnx m < l_tny m).
    { split; [apply Z.div_pos; lia|apply Z.div_lt_upper_bound; lia]. }
    assert (Ex : cx (alias m ic) = cx ic mod S_ + k mod l_tnx m * S_) by (cbn; fold k; lia).
    assert (Ey : cy (alias m ic) = cy ic mod S_ + k / l_tnx m * S_) by (cbn; fold k; lia).
    assert (Ti : tile_index bits m (alias m ic) = k).
    { unfold tile_index. rewrite !Z.shiftr_div_pow2 by lia. fold S_. rewrite Ex, Ey, !Z.div_add by lia.
      specialize (Mx ltac:(lia)). specialize (My ltac:(lia)).
      rewrite (Z.div_small (cx ic mod S_)), (Z.div_small (cy ic mod S_)) by lia. rewrite !Z.add_0_l.
      replace (k / l_tnx m * l_tnx m + k mod l_tnx m) with k by (rewrite Dk at 1 by lia; ring).
      apply u32_id. lia. }
    assert (Ci : cell_index bits (alias m ic) = cell_index bits ic).
    { unfold cell_index, tile_mask, tile_size. rewrite Z.shiftl_1_l.
      replace (2 ^ bits - 1) with (Z.ones bits) by (rewrite Z.ones_equiv; lia).
      rewrite !Z.land_ones by lia. fold S_. rewrite Ex, Ey, !Z.mod_add by lia. rewrite !Z.mod_mod by lia. reflexivity. }
    assert (Ta : tile_at bits m ic = tile_at bits m (alias m ic)) by (unfold tile_at; rewrite Ti; reflexivity).
    assert (A1 : 0 <= k mod l_tnx m < l_tnx m) by (apply Mk; lia).
    repeat split; auto; try (rewrite ?Ex, ?Ey; nia).
    unfold lcell_internal, cell_ptr. rewrite Ta, Ci. reflexivity.
  Qed.
End Alias.
