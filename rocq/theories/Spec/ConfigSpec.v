(** What configurations and command lines mean. *)
From Coq Require Import Ascii String ZArith List.
From Verif.Base Require Import Outcome Num.
From Verif.Model Require Import Properties.
Import ListNotations.

(** the value of a setting: the configured one, else the default *)
Definition setting (p : props) (key dflt value : str) : Prop := p key = Some value \/ (p key = None /\ value = dflt).
(** a component chosen by name: the one of that name, and termination if there is none *)
Definition chooses {A} (p : props) (key dflt : string) (table : list (string * A)) (res : outcome A) : Prop :=
  forall name, setting p (lit key) (lit dflt) name ->
    (forall n a, In (n, a) table -> name = lit n -> res = Ok a) /\
    ((forall n a, In (n, a) table -> name <> lit n) -> res = Abort).
(** a number read with a conversion that may fail *)
Definition number {A} (conv : str -> outcome A) (p : props) (key : string) (dflt : A) (v : A) : Prop :=
  (exists s, p (lit key) = Some s /\ conv s = Ok v) \/ (p (lit key) = None /\ v = dflt).

(** *** command lines: positional arguments, the switch -v, options with a value, and options without a value (followed by
    another option or nothing) *)
Inductive item := Pos (a : str) | Verbose | Opt (f v : str) | Dangling (f : str).
Definition dashed (a : str) : Prop := exists s, a = "-"%char :: s.
Definition words (i : item) : list str := match i with Pos a => [a] | Verbose => [lit "-v"] | Opt f v => [f; v] | Dangling f => [f] end.
Inductive items_ok : list item -> Prop :=
| io_nil : items_ok []
| io_pos a is : ~ dashed a -> items_ok is -> items_ok (Pos a :: is)
| io_verbose is : items_ok is -> items_ok (Verbose :: is)
| io_opt f v is : dashed f -> f <> lit "-v" -> ~ dashed v -> items_ok is -> items_ok (Opt f v :: is)
| io_dangling f is : dashed f -> f <> lit "-v" -> items_ok is -> (forall a is', is <> Pos a :: is') -> items_ok (Dangling f :: is).
Definition positionals (is : list item) : list str := flat_map (fun i => match i with Pos a => [a] | _ => [] end) is.
(** the values given to an option, in order *)
Definition values (f : str) (is : list item) : list str := flat_map (fun i => match i with Opt g v => if str_eqb g f then [v] else [] | _ => [] end) is.
