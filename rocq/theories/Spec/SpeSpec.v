(** Weighted means and the points a scan filter keeps. *)
From Coq Require Import Reals ZArith List Bool.
Import ListNotations.

(** one row per scan point: probability, weight, factor *)
Record row := mkRow { r_p : R; r_w : R; r_f : R }.
Definition weight_sum (l : list row) : R := fold_right (fun x s => r_w x + s)%R 0%R l.
Definition mass_sum (l : list row) : R := fold_right (fun x s => r_p x * r_w x * r_f x + s)%R 0%R l.

(** the elements of [l] at the positions that satisfy [keep], in order; positions count from [i] *)
Fixpoint select {A} (keep : Z -> A -> Prop) (i : Z) (l l' : list A) : Prop :=
  match l with
  | [] => l' = []
  | a :: l => (keep i a /\ exists t, l' = a :: t /\ select keep (i + 1) l t) \/ (~ keep i a /\ select keep (i + 1) l l')
  end.
