(** Several maps owned by one program: independent total functions.  A map is created, copied, assigned,
    destroyed or written; an operation on one map has no effect on any other. *)
From Coq Require Import ZArith List Bool.
From Verif.Spec Require Import MapSpec.
Import ListNotations.
Local Open Scope Z_scope.

Section ManyMaps.
  Context {C Ob : Type}.
  Variable apply_obs : C -> Ob -> C.

  (** [sm_unb]: coordinates are unrestricted; otherwise only those of the centred w x h box may be used *)
  Record smap := mkSMap { sm_unb : bool; sm_w : Z; sm_h : Z; sm_fun : tmap C }.
  Inductive sop :=
  | SCreate (unb : bool) (proto : C) (w h : Z)
  | SCopy (i : nat)
  | SAssign (dst src : nat)
  | SDestroy (i : nat)
  | SWrite (i : nat) (w : write C Ob).

  Definition valid_coord (m : smap) (c : Z * Z) : Prop := sm_unb m = false -> binside (sm_w m) (sm_h m) c.

  Fixpoint put {A} (l : list A) (n : nat) (a : A) : list A :=
    match l, n with
    | [], _ => []
    | _ :: l, O => a :: l
    | x :: l, S n => x :: put l n a
    end.

  (** the legal steps of a program *)
  Inductive sstep : list (option smap) -> sop -> list (option smap) -> Prop :=
  | st_create ms unb proto w h :
      sstep ms (SCreate unb proto w h) (ms ++ [Some (mkSMap unb w h (t_init proto))])
  | st_copy ms i m : nth_error ms i = Some (Some m) ->
      sstep ms (SCopy i) (ms ++ [Some m])
  | st_assign ms i j mi mj : nth_error ms i = Some (Some mi) -> nth_error ms j = Some (Some mj) ->
      sstep ms (SAssign i j) (put ms i (Some mj))
  | st_destroy ms i m : nth_error ms i = Some (Some m) ->
      sstep ms (SDestroy i) (put ms i None)
  | st_write ms i m w : nth_error ms i = Some (Some m) -> valid_coord m (w_coord w) ->
      sstep ms (SWrite i w)
        (put ms i (Some (mkSMap (sm_unb m) (sm_w m) (sm_h m) (t_step apply_obs (sm_fun m) w)))).

  Inductive sruns : list (option smap) -> list sop -> list (option smap) -> Prop :=
  | sr_nil ms : sruns ms [] ms
  | sr_cons ms op ms1 ops ms2 : sstep ms op ms1 -> sruns ms1 ops ms2 -> sruns ms (op :: ops) ms2.

  (** sizes in [1..k], written coordinates at most [M] away from the origin *)
  Definition sop_within (M k : Z) (op : sop) : Prop :=
    match op with
    | SCreate _ _ w h => 1 <= w <= k /\ 1 <= h <= k
    | SWrite _ w => within M (w_coord w)
    | _ => True
    end.
End ManyMaps.
Arguments smap C : clear implicits.
Arguments sop C Ob : clear implicits.
