(** C05-C07: plain grid maps. *)
From Coq Require Import ZArith List Lia Bool.
From Verif.Base Require Import Outcome Num.
From Verif.Model Require Import MathUtils Geometry Grid PlainMap.
From Verif.Spec Require Import MapSpec.
From Verif.Proofs Require Import GrowthProofs PlainMapProofs.
Import ListNotations.
Local Open Scope Z_scope.

(** C05.  [op_write] translates a call of the map's API to a write of the specification map. *)
Theorem C05_unbounded_plain_map_refines_total_map :
  forall (C Ob : Type) (cell_upd : C -> Ob -> C) (proto : C) (w h M : Z) (ops : list (map_op C Ob)),
  1 <= w -> 1 <= h -> 0 <= M -> 4 * M + 2 * Z.max w h < 2 ^ 31 ->
  (forall op, In op ops -> within M (w_coord (op_write op))) ->
  exists m, unb_run (ops := FOps) cell_upd (pmap_new proto w h) ops = Ok m /\
    (forall c, unb_get m c = Ok (t_run cell_upd (t_init proto) (map op_write ops) c)) /\
    p_w m <= 4 * M + 2 * Z.max w h /\ p_h m <= 4 * M + 2 * Z.max w h.
Proof. intros C Ob. exact unbounded_plain_refines. Qed.
Print Assumptions C05_unbounded_plain_map_refines_total_map.

(** operations on all four sides of a 2x1 map; the cell is the list of its observations *)
Definition C05_ops : list (map_op (list Z) Z) :=
  [Update (0, 0) 1; Update (5, -3) 2; Update (-7, 4) 3; Reset (0, 0) [9]; Update (0, 0) 10; Update (5, -3) 11].
Example C05_case_hyps : forall op, In op C05_ops -> within 7 (w_coord (op_write op)).
Proof. intros op H. cbn in H. unfold within. intuition (subst; cbn; lia). Qed.
Example C05_case :
  match unb_run (ops := FOps) (fun c o => o :: c) (pmap_new [] 2 1) C05_ops with
  | Ok m => (unb_get m (0, 0), unb_get m (5, -3), unb_get m (-7, 4), unb_get m (1, 1), unb_get m (1000, 1000))
            = (Ok [10; 9], Ok [11; 2], Ok [3], Ok [], Ok [])
  | _ => False
  end.
Proof. vm_compute. reflexivity. Qed.

(** C06: the growth step alone, for every well-formed map *)
Theorem C06_growth_covers_and_never_wraps :
  forall (C : Type) (m : pmap C) (c : coord), shape m -> p_w m < 2^31 -> p_h m < 2^31 ->
  0 <= cx (p_origin m) < 2^31 -> 0 <= cy (p_origin m) < 2^31 ->
  -2^31 < cx c + cx (p_origin m) < 2^31 -> -2^31 < cy c + cy (p_origin m) < 2^31 ->
  (cx c + cx (p_origin m) < 0 \/ p_w m <= cx c + cx (p_origin m) ->
   Z.max (5 * (p_w m - (cx c + cx (p_origin m)))) (Z.max (5 * (cx c + cx (p_origin m) + 1)) (6 * p_w m)) < 5 * 2^31) ->
  (cy c + cy (p_origin m) < 0 \/ p_h m <= cy c + cy (p_origin m) ->
   Z.max (5 * (p_h m - (cy c + cy (p_origin m)))) (Z.max (5 * (cy c + cy (p_origin m) + 1)) (6 * p_h m)) < 5 * 2^31) ->
  exists m', ensure_inside (ops := FOps) m c = Ok m' /\ shape m' /\
    (forall d, unb_get m' d = unb_get m d) /\ p_proto m' = p_proto m /\
    axis_grow (cx (p_origin m)) (p_w m) (cx c) (cx (p_origin m')) (p_w m') /\
    axis_grow (cy (p_origin m)) (p_h m) (cy c) (cy (p_origin m')) (p_h m') /\
    p_w m' < 2^31 /\ p_h m' < 2^31.
Proof. intros C. exact ensure_inside_spec. Qed.
Print Assumptions C06_growth_covers_and_never_wraps.

(** growing by one cell a map of width 10 reserves 20%: 12 columns, both prepended *)
Example C06_case :
  match ensure_inside (ops := FOps) (pmap_new 0 10 1) (-6, 0) with
  | Ok m => (p_w m, p_h m, p_origin m) = (12, 1, (7, 0))
  | _ => False
  end.
Proof. vm_compute. reflexivity. Qed.
Example C06_case_hyps : shape (pmap_new 0 10 1).
Proof. apply pmap_new_shape; lia. Qed.

(** the bookkeeping of one axis in IEEE doubles: prepended + old + appended = new, nothing shrinks or wraps *)
Theorem C06_update_dim_binary64 : forall (dim prep app : Z),
  1 <= dim < 2 ^ 31 -> 0 <= prep < 2 ^ 31 -> 0 <= app < 2 ^ 31 -> prep = 0 \/ app = 0 ->
  exists new' prep' app',
    @update_dim _ FOps dim (prep + dim + app) prep app = Ok (new', prep', app') /\
    new' = prep' + dim + app' /\ prep <= prep' /\ app <= app' /\
    (prep = 0 -> prep' = 0) /\ (app = 0 -> app' = 0) /\
    5 * new' <= Z.max (5 * (prep + dim + app)) (6 * dim).
Proof. exact update_dim_F64. Qed.
Print Assumptions C06_update_dim_binary64.

(** C07 *)
Theorem C07_bounded_plain_map_access :
  forall (C Ob : Type) (cell_upd : C -> Ob -> C) (proto : C) (w h : Z) (ops : list (map_op C Ob)),
  1 <= w -> 1 <= h -> (forall op, In op ops -> binside w h (w_coord (op_write op))) ->
  exists m, plain_run cell_upd (pmap_new proto w h) ops = Ok m /\
    (forall c, binside w h c -> plain_get m c = Ok (t_run cell_upd (t_init proto) (map op_write ops) c)) /\
    (forall c, ~ binside w h c -> plain_get m c = Abort /\ forall o, plain_update cell_upd m c o = Abort).
Proof. intros C Ob. exact bounded_plain_refines. Qed.
Print Assumptions C07_bounded_plain_map_access.

(** replacing a cell outside the map is not rejected by an assertion: undefined behaviour *)
Theorem C07_reset_outside_is_undefined :
  forall (C Ob : Type) (cell_upd : C -> Ob -> C) (proto : C) (w h : Z) (ops : list (map_op C Ob)) m c v,
  1 <= w -> 1 <= h -> (forall op, In op ops -> binside w h (w_coord (op_write op))) ->
  plain_run cell_upd (pmap_new proto w h) ops = Ok m -> ~ binside w h c -> plain_reset m c v = UB.
Proof. intros C Ob. exact bounded_plain_reset_outside. Qed.
Print Assumptions C07_reset_outside_is_undefined.

Example C07_case : binside 3 4 (-1, 1) /\ binside 3 4 (1, -2) /\ ~ binside 3 4 (2, 0) /\
  match plain_run (fun c o => o :: c) (pmap_new [] 3 4) [Update (-1, 1) 5; Update (1, -2) 6; Update (-1, 1) 7] with
  | Ok m => (plain_get m (-1, 1), plain_get m (1, -2), plain_get m (0, 0), plain_get m (2, 0))
            = (Ok [7; 5], Ok [6], Ok [], Abort)
  | _ => False
  end.
Proof. unfold binside; cbn. split; [lia|]. split; [lia|]. split; [lia|]. vm_compute. reflexivity. Qed.
