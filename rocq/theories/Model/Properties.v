(** Model of src/utils/properties_providers.h and of the tf ignore list of src/ros/init_utils.h. *)
From Coq Require Import Ascii String ZArith List Bool.
From Verif.Base Require Import Outcome.
Import ListNotations.
Local Open Scope Z_scope.
Local Open Scope outcome_scope.

(** std::string: a list of chars *)
Definition str := list ascii.
Definition lit (s : string) : str := list_ascii_of_string s.
Fixpoint str_eqb (a b : str) : bool :=
  match a, b with
  | [], [] => true
  | x :: a, y :: b => Ascii.eqb x y && str_eqb a b
  | _, _ => false
  end.
(** std::string::find(char, pos): the position of the first such char at or after pos *)
Fixpoint find_char (c : ascii) (s : str) : option nat :=
  match s with
  | [] => None
  | x :: s => if Ascii.eqb x c then Some 0%nat else match find_char c s with Some i => Some (S i) | None => None end
  end.
Definition find_from (c : ascii) (s : str) (pos : nat) : option nat :=
  match find_char c (skipn pos s) with Some i => Some (pos + i)%nat | None => None end.
(** std::string::substr(pos, len): an exception if pos > size() *)
Definition substr (s : str) (pos len : nat) : outcome str :=
  if (length s <? pos)%nat then Abort else Ok (firstn len (skipn pos s)).

(** *** MapPropertiesProvider (properties_providers.h:30-81).  The unordered map is its lookup function (the order of
    [available_properties] is not modelled). *)
Definition props := str -> option str.
Definition no_props : props := fun _ => None.
(** properties_providers.h:42-44 *)
Definition set_property (p : props) (id v : str) : props := fun k => if str_eqb id k then Some v else p k.
(** properties_providers.h:46-48 *)
Definition has_property (p : props) (id : str) : bool := match p id with Some _ => true | None => false end.
(** properties_providers.h:58-60 *)
Definition get_str (p : props) (id dflt : str) : str := match p id with Some v => v | None => dflt end.
(** properties_providers.h:66-70 *)
Definition get_bool (p : props) (id : str) (dflt : bool) : bool :=
  match p id with
  | None => dflt
  | Some v => negb (str_eqb v (lit "false") || str_eqb v (lit "0"))
  end.
(** properties_providers.h:72-75: insert keeps present keys *)
Definition append_props (p that : props) : props := fun k => match p k with Some v => Some v | None => that k end.

(** std::stoi / std::stoul (base 10): blanks, a sign, digits; the rest is ignored.  No digits or a value out of range is an
    exception, modelled as Abort. *)
Definition is_space (c : ascii) : bool := let n := Z.of_N (N_of_ascii c) in (n =? 32) || ((9 <=? n) && (n <=? 13)).
Definition digit (c : ascii) : option Z := let n := Z.of_N (N_of_ascii c) in if (48 <=? n) && (n <=? 57) then Some (n - 48) else None.
Fixpoint skip_spaces (s : str) : str := match s with c :: s' => if is_space c then skip_spaces s' else s | [] => [] end.
Definition take_sign (s : str) : bool * str :=
  match s with
  | c :: s' => if Ascii.eqb c "-" then (true, s') else if Ascii.eqb c "+" then (false, s') else (false, s)
  | [] => (false, [])
  end.
Fixpoint digits_from (acc : Z) (s : str) : Z := match s with c :: s' => match digit c with Some d => digits_from (10 * acc + d) s' | None => acc end | [] => acc end.
Definition starts_with_digit (s : str) : bool := match s with c :: _ => match digit c with Some _ => true | None => false end | [] => false end.
Definition parse_number (s : str) : outcome (bool * Z) :=
  let (neg, s) := take_sign (skip_spaces s) in
  if starts_with_digit s then Ok (neg, digits_from 0 s) else Abort.
Definition stoi (s : str) : outcome Z :=
  '(neg, n) <- parse_number s ;;
  let z := if neg : bool then - n else n in if in_int z then Ok z else Abort.
(** strtoul negates modulo 2^64 *)
Definition stoul (s : str) : outcome Z :=
  '(neg, n) <- parse_number s ;;
  if n <? 2 ^ 64 then Ok (if neg : bool then (- n) mod 2 ^ 64 else n) else Abort.
(** properties_providers.h:50-52 *)
Definition get_int (p : props) (id : str) (dflt : Z) : outcome Z := match p id with Some v => stoi v | None => Ok dflt end.
(** properties_providers.h:62-64: unsigned long converted to unsigned *)
Definition get_uint (p : props) (id : str) (dflt : Z) : outcome Z := match p id with Some v => z <- stoul v ;; Ok (z mod 2 ^ 32) | None => Ok dflt end.

(** *** FilePropertiesProvider (properties_providers.h:83-200) *)
Definition nl : ascii := "010"%char.
(** the std::getline loop (144-147): the lines of a text; an empty last line is no line *)
Fixpoint getlines (s : str) : list str :=
  match s with
  | [] => []
  | c :: s => if Ascii.eqb c nl then [] :: getlines s else match getlines s with [] => [[c]] | l :: ls => (c :: l) :: ls end
  end.
(** what a line asks for (150-196) *)
Inductive line_cmd := Nothing | Include (file : str) | Define (id v : str).
Definition read_line (buf : str) : line_cmd :=
  match buf with
  | [] => Nothing
  | c :: rest =>
      if Ascii.eqb c "#" then Nothing
      else if Ascii.eqb c "<" then (if Ascii.eqb (last buf " "%char) ">" then Include (removelast rest) else Nothing)
      else match find_char "=" buf with
           | None => Nothing
           | Some i => Define (firstn i buf) (skipn (S i) buf)
           end
  end.
Section Files.
  Variable fs : str -> option str.        (* the readable files *)
  Variable dirname : str -> str.          (* libc's dirname *)
  (** properties_providers.h:156-171: files are looked up next to the including one *)
  Definition included_path (path file : str) : str := dirname path ++ lit "/" ++ file.
  (** properties_providers.h:133-198: the loop of [parse_file]; [inc] is the recursive append_file_content.  [g] is the
      provider's own map, [l] the one being filled *)
  Fixpoint parse_lines (inc : str -> props -> props) (path : str) (lines : list str) (g l : props) : props * props :=
    match lines with
    | [] => (g, l)
    | buf :: lines =>
        match read_line buf with
        | Nothing => parse_lines inc path lines g l
        | Include f => parse_lines inc path lines (inc (included_path path f) g) l
        | Define id v => parse_lines inc path lines g (set_property l id v)
        end
    end.
  (** properties_providers.h:97-100 and 133-141.  Each file stays open while the files it includes are read; [handles] is how
      many files can still be opened: then opening fails, and the file counts as not existing (so circular includes end). *)
  Fixpoint append_file_content (handles : nat) (path : str) (g : props) : props :=
    match handles with
    | O => append_props g no_props
    | S handles =>
        match fs path with
        | None => append_props g no_props
        | Some text => let (g, l) := parse_lines (append_file_content handles) path (getlines text) g no_props in append_props g l
        end
    end.
End Files.

(** *** tf ignore list: init_utils.h:64-90.  The map from frames to lists of frames *)
Definition ignores := str -> list str.
Definition add_ignore (m : ignores) (from to : str) : ignores := fun k => if str_eqb from k then m k ++ [to] else m k.
Fixpoint ignore_loop (fuel : nat) (data : str) (i : nat) (m : ignores) : outcome ignores :=
  match fuel with
  | O => OutOfFuel
  | S fuel =>
      if (i <? length data)%nat then
        let sep := match find_from ":" data i with Some k => k | None => length data end in
        entry <- substr data i (sep - i) ;;
        match find_char "-" entry with
        | None => ignore_loop fuel data (sep + 1) m
        | Some k =>
            from <- substr entry 0 k ;;
            to <- substr entry (k + 1) (length entry - k - 1) ;;
            ignore_loop fuel data (sep + 1) (add_ignore m (lit "/" ++ from) (lit "/" ++ to))
        end
      else Ok m
  end.
Definition tf_ignored_transforms (fuel : nat) (p : props) : outcome ignores :=
  ignore_loop fuel (get_str p (lit "in/odometry/ros/tf/ignore") []) 0 (fun _ => []).
(** bag_topic_with_transform.h:82-89 *)
Definition should_skip (m : ignores) (from to : str) : bool := existsb (str_eqb to) (m from).
