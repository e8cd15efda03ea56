(** C86: saving a map and loading it with the same configuration. *)
From Coq Require Import ZArith List Bool Lia.
From Verif.Base Require Import Outcome Num OrdLaws.
From Verif.Model Require Import MathUtils Geometry Grid PlainMap LazyMap Serialization Cells MapState MapFile.
From Verif.Spec Require Import MapSpec MapFileSpec.
From Verif.Proofs Require Import PlainMapProofs StateProofs PyramidShape MapFileProofs.
Import ListNotations.
Local Open Scope Z_scope.

(** The map of type "unbounded_plain" under the multi-resolution matcher: whatever was written to its levels, whatever level is
    active, whatever the loading map [q] contained: loading gives the levels of the saved map, the finest one active.  (Saving
    may first add levels that a grown level lacks: [ms] are the levels after saving, the old ones among them.) *)
Theorem C86_multi_resolution_map_is_restored :
  forall (C Ob : Type) (cell_upd : C -> Ob -> C) (cc : codec C) (proto : C) (p q : rmap (pmap C * F64)),
  (forall obj c before after, deser cc obj (before ++ ser cc c ++ after) (length before) = Ok (c, length (before ++ ser cc c))) ->
  (forall c, Z.of_nat (length (ser cc c)) <= 2 ^ 20) ->
  rm_maps p <> [] -> Forall (used_map cell_upd proto) (rm_maps p) ->
  exists data ms q',
    rm_save (unbounded_plain_class cc) proto p = Ok (data, mkRM ms (rm_active p)) /\
    (exists finer added coarsest, rm_maps p = finer ++ coarsest /\ ms = finer ++ added ++ coarsest) /\
    rm_load (unbounded_plain_class cc) proto q data = Ok q' /\
    rm_active q' = 0%nat /\ Forall2 same_map (rm_maps q') ms.
Proof.
  intros C Ob cell_upd cc proto p q Hr Sm NE U. assert (HR : restores cc (fun _ c => c)) by exact Hr.
  destruct (ensure_maps_total (unbounded_plain_class cc) proto (used_map cell_upd proto)) with (ms := rm_maps p) as (ms & Ee & St & Us & Len).
  - intros w h s Hw Hh. now apply unb_new_ok.
  - intros m Hm. rewrite Forall_forall in U. destruct (used_shape cell_upd proto m (U m Hm)) as ((W1 & H1 & _) & _ & _ & _ & S1 & S2 & S3). cbn. lia.
  - exact U.
  - set (b0 := (pmap_new proto 0 0, dofZ 0) : pmap C * F64).
    assert (X : exists ds ms', Forall2 (fun m d => bk_save (unbounded_plain_class cc) m = Ok d) ms ds /\
                Forall2 (fun m d => Z.of_nat (length d) < 2 ^ 64 /\ bk_load (unbounded_plain_class cc) b0 d = Ok m) ms' ds /\ Forall2 same_map ms' ms).
    { clear - Us HR Sm. induction Us as [|m ms Hm Us (ds & ms' & F1 & F2 & F3)]; [exists [], []; auto|].
      destruct (used_saved cell_upd cc HR Sm proto m b0 Hm eq_refl) as (d & m' & E1 & L & E2 & SM). exists (d :: ds), (m' :: ms'). auto. }
    destruct X as (ds & ms' & F1 & F2 & F3). exists (concat (map chunk ds)), ms, (mkRM ms' 0).
    assert (S' : settled (unbounded_plain_class cc) ms').
    { assert (L : length ms' = length ms) by (clear - F3; induction F3; cbn; auto). destruct St as [St|(pc & N & W & H)]; [left; lia|right]. rewrite L.
      clear - F3 N W H. revert N. generalize (length ms - 2)%nat. induction F3 as [|a b la lb SM F3 IH]; intros [|i] N; try discriminate; cbn [nth_error] in *.
      - injection N as ->. exists a. destruct SM as (A1 & A2 & _). cbn in *. split; [reflexivity|]. lia.
      - destruct (IH i N) as (x & Nx & Hx). eauto. }
    split; [|split; [|split; [|split; [reflexivity|exact F3]]]].
    + unfold rm_save. rewrite Ee. cbn [bind]. rewrite (save_chunks_eq _ _ _ F1). reflexivity.
    + revert Ee. unfold ensure_maps. destruct (_ <? 2)%nat; [intros E; assert (ms = rm_maps p) as -> by congruence; exists (rm_maps p), [], []; rewrite !app_nil_r; auto|].
      destruct (nth_error _ _); [|discriminate]. destruct (_ && _); [intros E; assert (ms = rm_maps p) as -> by congruence; exists (rm_maps p), [], []; rewrite !app_nil_r; auto|].
      intros E. apply bind_Ok_inv in E as (w & _ & E). apply bind_Ok_inv in E as (h & _ & E). apply bind_Ok_inv in E as (l & _ & E). match type of E with Ok ?x = _ => assert (Y : ms = x) by congruence; rewrite Y end.
      do 3 eexists. split; [|reflexivity]. symmetry. apply firstn_skipn.
    + unfold rm_load. assert (LC := load_chunks_eq (unbounded_plain_class cc) proto b0 ms' ds eq_refl F2 (length (concat (map chunk ds))) [] (chunks_len ds)). cbn [app length] in LC. rewrite LC. cbn [bind].
      rewrite (settled_ensure _ _ _ S'). cbn [bind]. unfold rm_set_scale_id. cbn [rm_maps]. rewrite (settled_ensure _ _ _ S'). cbn [bind].
      assert (L : length ms' = length ms) by (clear - F3; induction F3; cbn; auto).
      destruct (Nat.ltb_spec 0 (length ms')) as [_|X]; [reflexivity|]. destruct (rm_maps p); [easy|]. cbn [length] in Len. lia.
Qed.
Print Assumptions C86_multi_resolution_map_is_restored.

(** The types "plain", "lazy_tiled" and "unbounded_lazy_tiled" save nothing: a cell of any map that holds something else than the
    prototype reads otherwise after saving and loading into a new map of any size. *)
Theorem C86_plain_map_is_not_saved_refuted :
  forall (C : Type) (b : pmap C * F64) (proto : C) w h s c v, plain_get (fst b) c = Ok v -> v <> proto ->
  exists data b0 b', bk_save plain_class b = Ok data /\ bk_new plain_class proto w h s = Ok b0 /\ bk_load plain_class b0 data = Ok b' /\
    plain_get (fst b') c <> Ok v.
Proof.
  intros C b proto w h s c v _ NE. exists [], (pmap_new proto w h, s), (pmap_new proto w h, s). split; [reflexivity|]. split; [reflexivity|]. split; [reflexivity|].
  unfold plain_get. cbn [fst]. destruct (has_internal_cell _ _ _); [|discriminate]. cbn [assert_ bind]. unfold cell_internal, pmap_new. cbn [p_cells].
  destruct (znth (repeat _ _) _) as [row|] eqn:E; [|discriminate]. destruct (znth row _) as [x|] eqn:E2; [|discriminate].
  unfold znth in E, E2. destruct (_ <? 0) in E; [discriminate|]. apply nth_error_In, repeat_spec in E. subst row. destruct (_ <? 0) in E2; [discriminate|]. apply nth_error_In, repeat_spec in E2. congruence.
Qed.
Print Assumptions C86_plain_map_is_not_saved_refuted.

Theorem C86_lazy_maps_are_not_saved_refuted :
  forall (C : Type) (unb : bool) (b : lstate C * F64) (proto : C) w h s c v, lread Tile_Size_Bits (fst b) 0 c = Ok v -> v <> proto ->
  exists data b0 b', bk_save (lazy_class unb) b = Ok data /\ bk_new (lazy_class unb) proto w h s = Ok b0 /\ bk_load (lazy_class unb) b0 data = Ok b' /\
    lread Tile_Size_Bits (fst b') 0 c <> Ok v.
Proof.
  intros C unb b proto w h s c v _ NE. do 3 eexists. split; [reflexivity|]. split; [reflexivity|]. split; [reflexivity|]. cbn [fst].
  match goal with |- lread _ ?x _ _ <> _ => set (st := x) end.
  assert (D : forall p x, deref st p = Ok x -> x = proto).
  { intros [|[|p]] x; unfold deref; cbn; intros E; congruence. }
  intros E. unfold lread in E. apply bind_Ok_inv in E as (m & _ & E). unfold lget in E. apply NE.
  assert (L : forall ic, lcell_internal Tile_Size_Bits st m ic = Ok v -> v = proto).
  { intros ic E'. unfold lcell_internal in E'. apply bind_Ok_inv in E' as (t & _ & E'). apply bind_Ok_inv in E' as (q & _ & E'). exact (D _ _ E'). }
  destruct (l_unb m); [destruct (has_internal_cell _ _ _)|]; eauto.
Qed.
Print Assumptions C86_lazy_maps_are_not_saved_refuted.

(** Under the multi-resolution matcher their levels come back without cells and with the scale 0 *)
Theorem C86_multi_resolution_levels_come_back_empty_refuted :
  forall (C B : Type) (bk : back_class C B) (proto : C) (b0 : B) (p q : rmap B) ms,
  (forall m, bk_save bk m = Ok []) -> (forall m data, bk_load bk m data = Ok m) ->
  bk_new bk proto 0 0 (dofZ 0) = Ok b0 -> bk_width bk b0 = 0 -> bk_height bk b0 = 0 -> bk_scale bk b0 = dofZ 0 ->
  ensure_maps bk proto (rm_maps p) = Ok ms -> ms <> [] ->
  exists data q', rm_save bk proto p = Ok (data, mkRM ms (rm_active p)) /\ rm_load bk proto q data = Ok q' /\ length (rm_maps q') = length ms /\
    forall m, In m (rm_maps q') -> bk_width bk m = 0 /\ bk_height bk m = 0 /\ bk_scale bk m = dofZ 0.
Proof.
  intros C B bk proto b0 p q ms HS HL E0 W0 H0 S0 EM NE. set (ds := map (fun _ : B => [] : bytes) ms). set (ms' := map (fun _ => b0) ms).
  exists (concat (map chunk ds)), (mkRM ms' 0).
  assert (F1 : Forall2 (fun m d => bk_save bk m = Ok d) ms ds) by (unfold ds; clear - HS; induction ms; cbn; auto).
  assert (F2 : Forall2 (fun m d => Z.of_nat (length d) < 2 ^ 64 /\ bk_load bk b0 d = Ok m) ms' ds) by (unfold ds, ms'; clear - HL; induction ms; cbn; constructor; auto; split; [cbn; lia|apply HL]).
  assert (I : forall m, In m ms' -> m = b0) by (intros m Hm; apply in_map_iff in Hm as (x & <- & _); reflexivity).
  assert (S' : settled bk ms').
  { destruct (Nat.ltb_spec (length ms') 2) as [X|X]; [now left|right]. destruct (nth_error ms' (length ms' - 2)) as [m|] eqn:N; [|apply nth_error_None in N; lia].
    exists m. split; [reflexivity|]. rewrite (I m (nth_error_In _ _ N)). lia. }
  split; [|split; [|split]].
  - unfold rm_save. rewrite EM. cbn [bind]. rewrite (save_chunks_eq _ _ _ F1). reflexivity.
  - unfold rm_load. assert (LC := load_chunks_eq bk proto b0 ms' ds E0 F2 (length (concat (map chunk ds))) [] (chunks_len ds)). cbn [app length] in LC. rewrite LC. cbn [bind].
    rewrite (settled_ensure _ _ _ S'). cbn [bind]. unfold rm_set_scale_id. cbn [rm_maps]. rewrite (settled_ensure _ _ _ S'). cbn [bind].
    destruct (Nat.ltb_spec 0 (length ms')) as [_|X]; [reflexivity|]. unfold ms' in X. rewrite map_length in X. destruct ms; [easy|cbn in X; lia].
  - apply map_length.
  - cbn [rm_maps]. intros m Hm. rewrite (I m Hm). auto.
Qed.
Print Assumptions C86_multi_resolution_levels_come_back_empty_refuted.
(** the three types are such classes *)
Theorem C86_classes_without_saving :
  forall (C : Type) (proto : C) unb,
  ((forall m, bk_save (plain_class (C := C)) m = Ok []) /\ (forall m data, bk_load (plain_class (C := C)) m data = Ok m) /\
   exists b0, bk_new plain_class proto 0 0 (dofZ 0) = Ok b0 /\ bk_width plain_class b0 = 0 /\ bk_height plain_class b0 = 0 /\ bk_scale plain_class b0 = dofZ 0) /\
  ((forall m, bk_save (lazy_class (C := C) unb) m = Ok []) /\ (forall m data, bk_load (lazy_class (C := C) unb) m data = Ok m) /\
   exists b0, bk_new (lazy_class unb) proto 0 0 (dofZ 0) = Ok b0 /\ bk_width (lazy_class unb) b0 = 0 /\ bk_height (lazy_class unb) b0 = 0 /\ bk_scale (lazy_class unb) b0 = dofZ 0).
Proof. intros C proto unb. split; (split; [reflexivity|]; split; [reflexivity|]); eexists; (split; [reflexivity|]); repeat split. Qed.
Print Assumptions C86_classes_without_saving.

(** and a file written by a configuration without the multi-resolution matcher, which is empty, ends the program under it *)
Theorem C86_empty_file_ends_the_program_refuted :
  forall (C B : Type) (bk : back_class C B) (proto : C) (q : rmap B), rm_load bk proto q [] = Abort.
Proof. reflexivity. Qed.
Print Assumptions C86_empty_file_ends_the_program_refuted.

(** a multi-resolution map of 5 x 4 cells: a cell observed on the finest level and replaced on the next, which grows the map *)
Definition mf_proto : gcell F64 := mkGCell (mkOcc (dlit 1 2) (dofZ 1)) true.
Definition mf_seen : gcell F64 := mkGCell (mkOcc (dlit 9 10) (dofZ 1)) false.
Definition mf_bk := unbounded_plain_class gcell_codec.
Definition mf_finest : outcome (pmap (gcell F64)) := unb_run (ops := FOps) (fun c (_ : unit) => mf_seen) (pmap_new mf_proto 5 4) [Update (1, 1) tt; Reset (7, -3) mf_seen].
Definition mf_map (m : pmap (gcell F64)) : rmap (pmap (gcell F64) * F64) := mkRM [(m, dlit 1 10); (pmap_new mf_proto 1 1, dofZ 1)] 0.
Definition found {A} (o : outcome A) (t : A -> bool) : bool := match o with Ok x => t x | _ => false end.
Lemma found_Ok {A} (o : outcome A) t : found o t = true -> exists x, o = Ok x /\ t x = true.
Proof. destruct o as [x| | |]; try discriminate. eauto. Qed.
Definition mf_check (m : pmap (gcell F64)) : bool :=
  (p_w m * p_h m <? 2 ^ 31) && (p_w m <=? 2 ^ 30) && (p_h m <=? 2 ^ 30) &&
  match rm_save mf_bk mf_proto (mf_map m) with
  | Ok (data, _) =>
      match rm_load mf_bk mf_proto (mkRM [] 0) data with
      | Ok q => Nat.ltb 2 (length (rm_maps q)) && Nat.ltb 900 (length data) &&
          match rm_maps q with
          | (f, s) :: _ => (p_w f =? p_w m) && (p_h f =? p_h m) && deq s (dlit 1 10) &&
              match unb_get f (7, -3), unb_get f (0, 0) with Ok x, Ok y => negb (c_unknown x) && c_unknown y | _, _ => false end
          | [] => false
          end
      | _ => false
      end
  | _ => false
  end.
Example C86_case :
  exists m, mf_finest = Ok m /\ Forall (used_map (fun c (_ : unit) => mf_seen) mf_proto) (rm_maps (mf_map m)) /\ mf_check m = true.
Proof.
  assert (X : found mf_finest mf_check = true) by (vm_compute; reflexivity).
  apply found_Ok in X as (m & E & H). exists m. split; [exact E|]. split; [|exact H].
  apply andb_true_iff in H as [D _]. apply andb_true_iff in D as [D D3]. apply andb_true_iff in D as [D1 D2]. apply Z.ltb_lt in D1. apply Z.leb_le in D2. apply Z.leb_le in D3.
  constructor; [|constructor; [|constructor]].
  - exists 5, 4, 10, [Update (1, 1) tt; Reset (7, -3) mf_seen]. repeat (split; [lia|]). split; [|split; [exact E|auto]].
    intros op [<-|[<-|[]]]; cbn; unfold within; cbn; lia.
  - exists 1, 1, 0, []. repeat (split; [lia|]). split; [now intros op []|]. split; [reflexivity|]. cbn. lia.
Qed.
(** the cell types with exact codecs (C12_exact_codecs) also meet the second hypothesis about the codec *)
Example C86_codecs :
  (forall c, Z.of_nat (length (ser gcell_codec c)) = 17) /\ (forall c, Z.of_nat (length (ser tcell_codec c)) = 49).
Proof.
  assert (L : forall n z, length (le_bytes n z) = n) by (induction n; intros; [reflexivity|change (S (length (le_bytes n (z / 256))) = S n); now rewrite IHn]).
  assert (R : forall v, length (repr v) = sizeof (type_of v)) by (intros [z|z|b|d]; [apply L|apply L|reflexivity|apply L]).
  assert (A : forall vs s, length (add_values s vs) = (length s + list_sum (map (fun v => sizeof (type_of v)) vs))%nat).
  { intros vs. induction vs as [|v vs IH]; intros s; [change (length s = (length s + 0)%nat); lia|].
    change (add_values s (v :: vs)) with (add_values (add_value s v) vs). rewrite IH. unfold add_value. rewrite app_length, R.
    change (list_sum (map (fun v => sizeof (type_of v)) (v :: vs))) with (sizeof (type_of v) + list_sum (map (fun v => sizeof (type_of v)) vs))%nat. lia. }
  assert (G : forall c, length (gcell_ser c) = 17%nat) by (intros c; unfold gcell_ser; rewrite A; reflexivity).
  split; intros c; cbn [ser gcell_codec tcell_codec].
  - now rewrite G.
  - unfold tcell_ser. rewrite A, G. reflexivity.
Qed.
