(** What properties files and the tf ignore list mean. *)
From Coq Require Import Ascii String ZArith List.
From Verif.Model Require Import Properties.
Import ListNotations.

(** lines of a text: each ends with a newline, except that the last one may not *)
Definition no_nl (l : str) : Prop := ~ In nl l.
Definition lines_of (text : str) (ls : list str) : Prop :=
  Forall no_nl ls /\
  (text = concat (map (fun l => l ++ [nl]) ls) \/
   exists init l, ls = init ++ [l] /\ l <> [] /\ text = concat (map (fun l => l ++ [nl]) init) ++ l).

(** a line defines a property: id=value, the id not containing '=' and not starting as a comment or an include *)
Definition defines (line id v : str) : Prop :=
  line = id ++ "="%char :: v /\ ~ In "="%char id /\ (forall c s, id = c :: s -> c <> "#"%char /\ c <> "<"%char).
(** a line includes a file: <file> *)
Definition includes (line file : str) : Prop := line = "<"%char :: file ++ [">"%char].

(** the value a list of lines gives to a property itself: that of its last definition *)
Definition own_value (ls : list str) (id : str) (v : option str) : Prop :=
  match v with
  | None => forall l w, In l ls -> ~ defines l id w
  | Some v => exists l1 l l2, ls = l1 ++ l :: l2 /\ defines l id v /\ forall l' w, In l' l2 -> ~ defines l' id w
  end.
(** the files a list of lines includes, in order *)
Inductive included : list str -> list str -> Prop :=
| inc_nil : included [] []
| inc_line l ls f fs : includes l f -> included ls fs -> included (l :: ls) (f :: fs)
| inc_skip l ls fs : (forall f, ~ includes l f) -> included ls fs -> included (l :: ls) fs.

(** a history of settings *)
Definition last_set (h : list (str * str)) (id : str) (v : option str) : Prop :=
  match v with
  | None => forall w, ~ In (id, w) h
  | Some v => exists h1 h2, h = h1 ++ (id, v) :: h2 /\ forall w, ~ In (id, w) h2
  end.

(** decimal digits and their value *)
Definition is_digit (c : ascii) (d : Z) : Prop := (0 <= d <= 9)%Z /\ Z.of_N (N_of_ascii c) = (48 + d)%Z.
Inductive decimal : str -> Z -> Prop :=
| dec_one c d : is_digit c d -> decimal [c] d
| dec_more s z c d : decimal s z -> is_digit c d -> decimal (s ++ [c]) (10 * z + d)%Z.
Definition blank (c : ascii) : Prop := c = " "%char \/ (9 <= Z.of_N (N_of_ascii c) <= 13)%Z.
Definition not_digit_first (s : str) : Prop := forall c s' d, s = c :: s' -> ~ is_digit c d.

Section Files.
  Variable fs : str -> option str.
  Variable dirname : str -> str.
  (** the files read for a path, in order: the included ones (looked up next to the file) before the file itself; nothing if
      the file cannot be opened (it does not exist or [h] files at most can be open at a time) *)
  Inductive read_order : nat -> str -> list str -> Prop :=
  | ro_too_deep path : read_order 0 path []
  | ro_missing h path : fs path = None -> read_order (S h) path []
  | ro_file h path text ls incs files : fs path = Some text -> lines_of text ls -> included ls incs -> read_all h (map (fun f => dirname path ++ "/"%char :: f) incs) files -> read_order (S h) path (files ++ [path])
  with read_all : nat -> list str -> list str -> Prop :=
  | ra_nil h : read_all h [] []
  | ra_cons h p ps files more : read_order h p files -> read_all h ps more -> read_all h (p :: ps) (files ++ more).
  (** the value a file itself gives *)
  Definition file_value (path id : str) (v : option str) : Prop := exists text ls, fs path = Some text /\ lines_of text ls /\ own_value ls id v.
  (** the first of the files that defines the property gives its value *)
  Definition first_value (files : list str) (id : str) (v : option str) : Prop :=
    match v with
    | None => forall f, In f files -> file_value f id None
    | Some v => exists f1 f f2, files = f1 ++ f :: f2 /\ file_value f id (Some v) /\ forall f', In f' f1 -> file_value f' id None
    end.
End Files.

(** the ignore list: entries separated by ':', each "from-to"; other entries mean nothing *)
Fixpoint join (es : list str) : str := match es with [] => [] | [e] => e | e :: es => e ++ ":"%char :: join es end.
Definition entries (data : str) (es : list str) : Prop := Forall (fun e => ~ In ":"%char e) es /\ join es = data.
Inductive frame_pairs : list str -> list (str * str) -> Prop :=
| fp_nil : frame_pairs [] []
| fp_pair from to es ps : ~ In "-"%char from -> frame_pairs es ps -> frame_pairs ((from ++ "-"%char :: to) :: es) ((from, to) :: ps)
| fp_other e es ps : ~ In "-"%char e -> frame_pairs es ps -> frame_pairs (e :: es) ps.
