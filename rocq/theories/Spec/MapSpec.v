(** The simplest map: a total function from integer coordinates to cells. *)
From Coq Require Import ZArith List.
From Verif.Model Require Import PlainMap.
Import ListNotations.
Local Open Scope Z_scope.

Section MapSpec.
  Context {C Ob : Type}.
  Variable apply_obs : C -> Ob -> C.

  Definition tmap := Z * Z -> C.
  Definition coord_eq_dec (a b : Z * Z) : {a = b} + {a <> b}.
  Proof. decide equality; apply Z.eq_dec. Defined.

  (** every cell initially holds the prototype *)
  Definition t_init (proto : C) : tmap := fun _ => proto.
  Definition t_write (f : tmap) (c : Z * Z) (v : C) : tmap :=
    fun c' => if coord_eq_dec c' c then v else f c'.

  (** writes: an observation merged into a cell, or a cell replaced *)
  Inductive write := WObserve (c : Z * Z) (o : Ob) | WReplace (c : Z * Z) (v : C).
  Definition w_coord (w : write) : Z * Z := match w with WObserve c _ => c | WReplace c _ => c end.
  Definition t_step (f : tmap) (w : write) : tmap :=
    match w with
    | WObserve c o => t_write f c (apply_obs (f c) o)
    | WReplace c v => t_write f c v
    end.
  Definition t_run (f : tmap) (l : list write) : tmap := fold_left t_step l f.

  (** coordinates within a distance [M] of the origin on each axis *)
  Definition within (M : Z) (c : Z * Z) : Prop := - M <= fst c <= M /\ - M <= snd c <= M.
End MapSpec.
Arguments write C Ob : clear implicits.
Arguments tmap C : clear implicits.

(** What making an axis (extent [n], index of external 0 = [o]) cover the external coordinate [c] must do:
    the new origin/extent [o'], [n'] keep all old cells, contain [c], grow on one side only, and never beyond
    120% of the old extent unless the coordinate itself requires more. *)
Definition axis_grow (o n c o' n' : Z) : Prop :=
    o <= o' /\ o' - o + n <= n' /\ 0 <= c + o' < n' /\
    (0 <= c + o < n -> o' = o /\ n' = n) /\
    (c + o < 0 -> n' - o' = n - o /\ 5 * n' <= Z.max (5 * (n - (c + o))) (6 * n)) /\
    (n <= c + o -> o' = o /\ 5 * n' <= Z.max (5 * (c + o + 1)) (6 * n)).

(** The coordinates of a bounded w x h map whose external origin is its middle. *)
Definition binside (w h : Z) (c : Z * Z) : Prop :=
    - (w / 2) <= fst c < w - w / 2 /\ - (h / 2) <= snd c < h - h / 2.

(** the write an API call of a map means *)
Definition op_write {C Ob} (op : map_op C Ob) : write C Ob :=
  match op with Update c o => WObserve c o | Reset c v => WReplace c v end.
