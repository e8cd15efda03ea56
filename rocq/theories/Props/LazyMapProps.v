(** C08-C10: lazily tiled (copy-on-write) maps. *)
From Coq Require Import ZArith List Lia Bool.
From Verif.Base Require Import Outcome Num.
From Verif.Model Require Import MathUtils Geometry Grid PlainMap LazyMap.
From Verif.Spec Require Import MapSpec ManyMapsSpec.
From Verif.Proofs Require Import LazyMapProofs.
Import ListNotations.
Local Open Scope Z_scope.

(** C08: any program that creates, copies, assigns, destroys and writes maps of both classes (bounded and
    unbounded) runs without failure, and every live map always reads as its own independent total function.
    [sop_lop] translates a program of the specification to calls of the API.  Tile size 2^bits, any bits <= 15. *)
Theorem C08_copies_are_independent :
  forall (bits : Z), 0 <= bits <= 15 ->
  forall M K EXT : Z, 0 <= M -> 1 <= K -> EXT = M + K + 2 * 2 ^ bits -> 2 * EXT < 2 ^ (16 + bits) ->
  forall (C Ob : Type) (cell_upd : C -> Ob -> C) (ops : list (sop C Ob)) (ms : list (option (smap C))),
  sruns cell_upd [] ops ms -> Forall (sop_within M K) ops ->
  exists s, lrun bits cell_upd lempty (map sop_lop ops) = Ok s /\
    length (s_maps s) = length ms /\
    forall i sm, nth_error ms i = Some (Some sm) ->
      forall c, valid_coord sm c -> lread bits s i c = Ok (sm_fun sm c).
Proof. intros. eapply lazy_maps_independent; eauto. Qed.
Print Assumptions C08_copies_are_independent.

(** the tile size of the code *)
Theorem C08_copies_are_independent_128 :
  forall M K : Z, 0 <= M -> 1 <= K -> M + K < 2 ^ 22 - 256 ->
  forall (C Ob : Type) (cell_upd : C -> Ob -> C) (ops : list (sop C Ob)) (ms : list (option (smap C))),
  sruns cell_upd [] ops ms -> Forall (sop_within M K) ops ->
  exists s, lrun Tile_Size_Bits cell_upd lempty (map sop_lop ops) = Ok s /\
    forall i sm, nth_error ms i = Some (Some sm) ->
      forall c, valid_coord sm c -> lread Tile_Size_Bits s i c = Ok (sm_fun sm c).
Proof.
  intros M K HM HK HB C Ob cell_upd ops ms Hr Hw.
  destruct (C08_copies_are_independent Tile_Size_Bits) with (M := M) (K := K) (EXT := M + K + 2 * 2 ^ 7)
    (C := C) (Ob := Ob) (cell_upd := cell_upd) (ops := ops) (ms := ms) as (s & E & _ & H);
    [unfold Tile_Size_Bits; lia|exact HM|exact HK|reflexivity|unfold Tile_Size_Bits; lia|exact Hr|exact Hw|].
  exists s. split; [exact E|exact H].
Qed.
Print Assumptions C08_copies_are_independent_128.

(** C09: one unbounded map *)
Theorem C09_unbounded_lazy_map_refines_total_map :
  forall M w h : Z, 0 <= M -> 1 <= w -> 1 <= h -> M + Z.max w h < 2 ^ 22 - 256 ->
  forall (C Ob : Type) (cell_upd : C -> Ob -> C) (proto : C) (ws : list (write C Ob)),
  (forall x, In x ws -> within M (w_coord x)) ->
  exists s, lrun Tile_Size_Bits cell_upd lempty
              (LCreate true proto w h :: map (fun x => sop_lop (SWrite 0 x)) ws) = Ok s /\
    forall c, lread Tile_Size_Bits s 0 c = Ok (t_run cell_upd (t_init proto) ws c).
Proof.
  intros M w h HM Hw Hh HB C Ob cell_upd proto ws Hin.
  assert (HR : forall ws f, sruns (Ob := Ob) cell_upd [Some (mkSMap true w h f)] (map (SWrite 0) ws)
                          [Some (mkSMap true w h (t_run cell_upd f ws))]).
  { clear. induction ws as [|x ws IH]; intros f; cbn; [constructor|]. econstructor.
    - apply st_write with (m := mkSMap true w h f); [reflexivity|]. intros E; discriminate.
    - cbn. apply IH. }
  destruct (C08_copies_are_independent_128 M (Z.max w h) HM ltac:(lia) HB C Ob cell_upd
              (SCreate true proto w h :: map (SWrite 0) ws) [Some (mkSMap true w h (t_run cell_upd (t_init proto) ws))])
    as (s & E & H).
  - econstructor; [apply st_create|]. cbn. apply HR.
  - constructor; [cbn; lia|]. rewrite Forall_forall. intros op Hop. apply in_map_iff in Hop.
    destruct Hop as (x & <- & Hx). cbn. auto.
  - exists s. rewrite <- E. cbn [map sop_lop]. rewrite map_map. split; [reflexivity|].
    intros c. apply (H 0%nat _ eq_refl c). intros Eb; discriminate.
Qed.
Print Assumptions C09_unbounded_lazy_map_refines_total_map.

Definition C09_ws : list (write (list Z) Z) :=
  [WObserve (0, 0) 1; WObserve (150, -200) 2; WObserve (0, 0) 3; WReplace (-1, 1) [7]; WObserve (-300, 5) 4].
Example C09_case_hyps : forall x, In x C09_ws -> within 300 (w_coord x).
Proof. intros x H. cbn in H. unfold within. intuition (subst; cbn; lia). Qed.
Example C09_case :
  match lrun Tile_Size_Bits (fun c o => o :: c) lempty
          (LCreate true [] 3 200 :: map (fun x => sop_lop (SWrite 0 x)) C09_ws) with
  | Ok s => map (lread Tile_Size_Bits s 0) [(0, 0); (150, -200); (-1, 1); (-300, 5); (150, -199); (1000000, 0)]
            = [Ok [3; 1]; Ok [2]; Ok [7]; Ok [4]; Ok []; Ok []]
  | _ => False
  end.
Proof. vm_compute. reflexivity. Qed.

(** a program with three maps sharing tiles: the copies see only their own writes *)
Definition C08_prog : list (sop (list Z) Z) :=
  [SCreate true [] 4 4; SWrite 0 (WObserve (0, 0) 1); SCopy 0; SWrite 1 (WObserve (0, 0) 2); SCopy 1;
   SWrite 0 (WObserve (1, 1) 3); SWrite 2 (WReplace (0, 0) [9]); SDestroy 1; SWrite 2 (WObserve (0, 0) 4)].
Example C08_case_run : exists ms, sruns (fun c o => o :: c) [] C08_prog ms /\
  nth_error ms 1 = Some None /\
  exists m, nth_error ms 2 = Some (Some m) /\ sm_fun m (0, 0) = [4; 9].
Proof.
  eexists. split.
  { unfold C08_prog.
    repeat (econstructor; [solve [econstructor; try reflexivity; intros E; discriminate]|]). constructor. }
  split; [reflexivity|]. eexists. split; reflexivity.
Qed.
Example C08_case : Forall (sop_within 1 4) C08_prog /\
  match lrun 1 (fun c o => o :: c) lempty (map sop_lop C08_prog) with
  | Ok s => (map (lread 1 s 0) [(0, 0); (1, 1); (5, 5)], map (lread 1 s 2) [(0, 0); (1, 1); (5, 5)], lread 1 s 1 (0, 0))
            = ([Ok [1]; Ok [3]; Ok []], [Ok [4; 9]; Ok []; Ok []], UB)
  | _ => False
  end.
Proof.
  split; [|vm_compute; reflexivity].
  unfold C08_prog, sop_within, within. repeat constructor; cbn; lia.
Qed.

(** C10: what an access at any internal coordinate really does.  It is either outside the vector of tiles, or it
    is served by the cell [alias m ic] of the tile area: nothing is rejected. *)
Theorem C10_access_characterisation :
  forall (bits : Z), 0 <= bits -> forall (C : Type) (s : lstate C) (m : lmap) (ic : coord),
  1 <= l_tnx m -> l_tnx m * l_tny m < 2 ^ 32 -> Z.of_nat (length (l_tiles m)) = l_tnx m * l_tny m ->
  (tile_at bits m ic = UB /\ lcell_internal bits s m ic = UB) \/
  (0 <= cx (alias bits m ic) < l_tnx m * 2 ^ bits /\ 0 <= cy (alias bits m ic) < l_tny m * 2 ^ bits /\
   tile_at bits m ic = tile_at bits m (alias bits m ic) /\
   cell_index bits ic = cell_index bits (alias bits m ic) /\
   lcell_internal bits s m ic = lcell_internal bits s m (alias bits m ic)).
Proof. intros bits Hb C s m ic. apply access_alias. exact Hb. Qed.
Print Assumptions C10_access_characterisation.

(** C10 is false of the code: on a bounded 256 x 256 map an observation at the outside coordinate (-129, 0)
    modifies the valid cell (127, -128). *)
Theorem C10_out_of_range_rejected_refuted :
  exists s, lrun Tile_Size_Bits (fun (c : list Z) (o : Z) => o :: c) lempty
              [LCreate false [] 256 256; LUpdate 0 (-129, 0) 5] = Ok s /\
    ~ binside 256 256 (-129, 0) /\ binside 256 256 (127, -128) /\
    lread Tile_Size_Bits s 0 (127, -128) = Ok [5].
Proof.
  eexists. split; [vm_compute; reflexivity|]. unfold binside; cbn. split; [lia|]. split; [lia|].
  vm_compute. reflexivity.
Qed.
Print Assumptions C10_out_of_range_rejected_refuted.
