(** C42, C43, C53: properties files, property lookups, the tf ignore list. *)
From Coq Require Import Ascii String ZArith List Bool Lia.
From Verif.Base Require Import Outcome.
From Verif.Model Require Import Properties.
From Verif.Spec Require Import PropertiesSpec.
From Verif.Proofs Require Import PropertiesProofs.
Import ListNotations.

(** *** C42 *)
(** What appending a file means, for all file systems and include graphs: the files are read in an order determined by the
    includes, included before including, and each property keeps the value it had before, or else gets the one of the first
    file in that order which defines it - of its last definition there. *)
Theorem C42_meaning_partial : forall fs dirname handles path before, exists files,
  read_order fs dirname handles path files /\ (forall files', read_order fs dirname handles path files' -> files' = files) /\
  forall id, match before id with
             | Some v => append_file_content fs dirname handles path before id = Some v
             | None => first_value fs files id (append_file_content fs dirname handles path before id)
             end.
Proof.
  intros fs dirname h path g. exists (order fs dirname h path). split; [apply order_spec|]. split; [apply read_order_unique|]. intros id. rewrite append_spec. destruct (g id); [reflexivity|].
  apply first_spec; [|reflexivity]. apply order_exist.
Qed.
Print Assumptions C42_meaning_partial.

(** A file without includes: every property has the value of its last definition, comments and blank lines mean nothing. *)
Theorem C42_last_definition_partial : forall fs dirname handles path text ls, fs path = Some text -> lines_of text ls -> (forall l f, In l ls -> ~ includes l f) ->
  forall id, own_value ls id (append_file_content fs dirname (S handles) path no_props id).
Proof.
  intros fs dirname h path text ls E L NI id. rewrite append_spec. cbn [no_props]. unfold no_props. cbn [order]. rewrite E. apply lines_of_getlines in L as ->.
  assert (I : incs (getlines text) = []).
  { revert NI. induction (getlines text) as [|x l IH]; intros NI; cbn [incs]; [reflexivity|]. destruct (read_line x) eqn:R; try (apply IH; intros y f I; apply NI; now right).
    apply read_include in R. exfalso. exact (NI x _ (or_introl eq_refl) R). }
  rewrite I. cbn [map flat_map app first_of]. unfold file_own. rewrite E. assert (S := own_spec (getlines text) id). destruct (own (getlines text) id None); exact S.
Qed.
Print Assumptions C42_last_definition_partial.

(** The claim fails: a definition after the include does not override the included one... *)
Definition ex_fs (path : str) : option str :=
  if str_eqb path (lit "d/main") then Some (lit "<base>" ++ [nl] ++ lit "slam/map/type=own" ++ [nl])
  else if str_eqb path (lit "d/base") then Some (lit "slam/map/type=included")
  else if str_eqb path (lit "d/loop") then Some (lit "a=1" ++ [nl] ++ lit "<loop>")
  else None.
Theorem C42_no_override_refuted :
  file_value ex_fs (lit "d/main") (lit "slam/map/type") (Some (lit "own")) /\
  append_file_content ex_fs (fun _ => lit "d") 10 (lit "d/main") no_props (lit "slam/map/type") = Some (lit "included").
Proof. split; [apply file_own_value; [discriminate|reflexivity]|]. reflexivity. Qed.
Print Assumptions C42_no_override_refuted.
(** ... in general: the value of a property an included file defines never comes from the including file. *)
Theorem C42_included_wins : forall fs dirname handles path text ls incs files id f v,
  fs path = Some text -> lines_of text ls -> included ls incs -> read_all fs dirname handles (map (fun f => dirname path ++ "/"%char :: f) incs) files ->
  In f files -> file_value fs f id (Some v) ->
  exists w, append_file_content fs dirname (S handles) path no_props id = Some w /\ first_value fs files id (Some w).
Proof.
  intros fs dirname h path text ls is files id f v E L I A If V.
  assert (R : read_order fs dirname (S h) path (files ++ [path])) by (eapply ro_file; eassumption). assert (EX := read_order_unique fs dirname (S h) path _ R).
  assert (NE : forall g, In g files -> fs g <> None) by (intros g G; apply (order_exist fs dirname (S h) path); rewrite <- EX; apply in_app_iff; now left).
  rewrite append_spec. unfold no_props. rewrite <- EX, first_app.
  assert (S : exists w, first_of fs files id = Some w).
  { apply (file_own_value fs f id (Some v) (NE f If)) in V. clear - If V. induction files as [|g files IH]; [destruct If|]. cbn [first_of]. destruct (file_own fs g id) eqn:O; [eauto|]. destruct If as [->|If]; [congruence|auto]. }
  destruct S as (w & W). rewrite W. exists w. split; [reflexivity|]. apply first_spec; [exact NE|congruence].
Qed.
Print Assumptions C42_included_wins.
(** circular includes end (when no more files can be opened) *)
Example C42_circular : forall handles, append_file_content ex_fs (fun _ => lit "d") (S handles) (lit "d/loop") no_props (lit "a") = Some (lit "1").
Proof.
  intros h. rewrite append_spec. unfold no_props. assert (X : forall n, first_of ex_fs (order ex_fs (fun _ => lit "d") n (lit "d/loop")) (lit "a") = None \/ first_of ex_fs (order ex_fs (fun _ => lit "d") n (lit "d/loop")) (lit "a") = Some (lit "1")).
  { induction n as [|n IH]; [now left|]. right. cbn [order]. change (ex_fs (lit "d/loop")) with (Some (lit "a=1" ++ [nl] ++ lit "<loop>")). cbv iota. change (map _ _) with [lit "d/loop"]. cbn [flat_map]. rewrite app_nil_r, first_app. destruct IH as [->| ->]; reflexivity. }
  cbn [order]. change (ex_fs (lit "d/loop")) with (Some (lit "a=1" ++ [nl] ++ lit "<loop>")). cbv iota. change (map _ _) with [lit "d/loop"]. cbn [flat_map]. rewrite app_nil_r, first_app. destruct (X h) as [->| ->]; reflexivity.
Qed.

(** *** C43 *)
Definition set_all (h : list (str * str)) : props := fold_left (fun p kv => set_property p (fst kv) (snd kv)) h no_props.
(** after any history of settings the last value set is read, and the default if none was set *)
Theorem C43_last_set : forall h id, exists v, last_set h id v /\
  (forall dflt, get_str (set_all h) id dflt = match v with Some v => v | None => dflt end) /\
  (forall dflt, get_bool (set_all h) id dflt = match v with Some v => negb (if list_eq_dec ascii_dec v (lit "false") then true else if list_eq_dec ascii_dec v (lit "0") then true else false) | None => dflt end) /\
  (v = None -> forall dflt dflt', get_int (set_all h) id dflt = Ok dflt /\ get_uint (set_all h) id dflt' = Ok dflt').
Proof.
  intros h id. exists (after h id). split; [apply after_spec|]. unfold get_str, get_bool, get_int, get_uint. change (set_all h) with (after h). split; [reflexivity|]. split.
  - intros dflt. destruct (after h id) as [v|]; [|reflexivity]. f_equal. destruct (list_eq_dec ascii_dec v (lit "false")) as [E|E]; [apply str_eqb_eq in E; now rewrite E|]. apply str_eqb_neq in E. rewrite E. cbn [orb].
    destruct (list_eq_dec ascii_dec v (lit "0")) as [F|F]; [now apply str_eqb_eq|now apply str_eqb_neq].
  - intros ->. auto.
Qed.
Print Assumptions C43_last_set.
(** integers: blanks, a sign, decimal digits, and anything else; an exception (Abort) if the number is no int *)
Theorem C43_int : forall p id b (sign : option bool) ds z rest dflt, Forall blank b -> decimal ds z -> not_digit_first rest ->
  p id = Some (b ++ match sign with None => [] | Some true => ["-"%char] | Some false => ["+"%char] end ++ ds ++ rest) ->
  let n := match sign with Some true => (- z)%Z | _ => z end in
  get_int p id dflt = if (int_min <=? n)%Z && (n <=? int_max)%Z then Ok n else Abort.
Proof.
  intros p id b sign ds z rest dflt B D N E n. unfold get_int. rewrite E. unfold stoi. destruct sign as [[]|]; cbn [app].
  - rewrite (parse_signed b true ds z rest B D N). reflexivity.
  - rewrite (parse_signed b false ds z rest B D N). reflexivity.
  - rewrite (parse_unsigned b ds z rest B D N). reflexivity.
Qed.
Print Assumptions C43_int.
(** unsigned: the value modulo 2^32, silently; a minus sign is accepted and wraps; an exception above 2^64 *)
Theorem C43_uint : forall p id b (sign : option bool) ds z rest dflt, Forall blank b -> decimal ds z -> not_digit_first rest ->
  p id = Some (b ++ match sign with None => [] | Some true => ["-"%char] | Some false => ["+"%char] end ++ ds ++ rest) ->
  get_uint p id dflt = if (z <? 2 ^ 64)%Z then Ok (match sign with Some true => (- z) mod 2 ^ 32 | _ => z mod 2 ^ 32 end)%Z else Abort.
Proof.
  intros p id b sign ds z rest dflt B D N E. unfold get_uint. rewrite E. unfold stoul. destruct sign as [[]|]; cbn [app].
  - rewrite (parse_signed b true ds z rest B D N). cbn [bind]. destruct (z <? 2 ^ 64)%Z; [|reflexivity]. cbn [bind]. f_equal. change (2 ^ 64)%Z with (2 ^ 32 * 2 ^ 32)%Z. rewrite Z.rem_mul_r by lia. rewrite (Z.mul_comm (2 ^ 32)), Z_mod_plus_full, Z.mod_mod by lia. reflexivity.
  - rewrite (parse_signed b false ds z rest B D N). cbn [bind]. destruct (z <? 2 ^ 64)%Z; reflexivity.
  - rewrite (parse_unsigned b ds z rest B D N). cbn [bind]. destruct (z <? 2 ^ 64)%Z; reflexivity.
Qed.
Print Assumptions C43_uint.
Example C43_minus_one : get_uint (set_all [(lit "n", lit "-1")]) (lit "n") 7 = Ok 4294967295%Z.
Proof.
  apply (C43_uint _ _ [] (Some true) (lit "1") 1 []); [constructor| |intros c s d E; discriminate|reflexivity]. apply (dec_one "1"%char 1). split; [lia|reflexivity].
Qed.
Example C43_int_example : get_int (set_all [(lit "n", lit "3"); (lit "m", lit "x"); (lit "n", lit " -42 m")]) (lit "n") 7 = Ok (-42)%Z.
Proof.
  apply (C43_int _ _ [" "%char] (Some true) (lit "42") 42 (lit " m")); [repeat constructor| |intros c s d E [H1 H2]; injection E as <- _; assert (Q : Z.of_N (N_of_ascii " ") = 32%Z) by reflexivity; rewrite Q in H2; lia|reflexivity].
  apply (dec_more ["4"%char] 4 "2"%char 2); [apply (dec_one "4"%char 4)|]; split; lia || reflexivity.
Qed.
(** texts without a number are exceptions *)
Theorem C43_no_number : forall p id c s dflt, p id = Some (c :: s) -> ~ blank c -> c <> "-"%char -> c <> "+"%char -> (forall d, ~ is_digit c d) -> get_int p id dflt = Abort /\ get_uint p id dflt = Abort.
Proof.
  intros p id c s dflt E B N1 N2 D. unfold get_int, get_uint. rewrite E. assert (P : parse_number (c :: s) = Abort); [|unfold stoi, stoul; rewrite P; auto].
  unfold parse_number. cbn [skip_spaces]. destruct (is_space c) eqn:S; [apply is_space_spec in S; contradiction|]. cbn [take_sign]. apply Ascii.eqb_neq in N1. apply Ascii.eqb_neq in N2. rewrite N1, N2. cbn [starts_with_digit].
  destruct (digit c) as [d|] eqn:Dg; [apply digit_spec in Dg; exfalso; exact (D d Dg)|reflexivity].
Qed.
Print Assumptions C43_no_number.

(** *** C53 *)
(** the list of any text: exactly the pairs written, in order, each frame with a leading slash *)
Theorem C53_ignored : forall p data, get_str p (lit "in/odometry/ros/tf/ignore") [] = data ->
  exists es ps, entries data es /\ frame_pairs es ps /\ exists n, forall fuel, n <= fuel ->
  exists m, tf_ignored_transforms fuel p = Ok m /\
    (forall key, m key = map (fun q => "/"%char :: snd q) (filter (fun q => if list_eq_dec ascii_dec ("/"%char :: fst q) key then true else false) ps)) /\
    (forall from to, should_skip m from to = true <-> exists f t, In (f, t) ps /\ from = "/"%char :: f /\ to = "/"%char :: t).
Proof.
  intros p data Ed. destruct (entries_exist data) as (es & N & J). destruct (pairs_exist es) as (ps & P). exists es, ps. split; [split; assumption|]. split; [exact P|].
  exists (S (length es)). intros fuel Hf. exists (fold_left apply_entry es (fun _ => [])). split.
  - unfold tf_ignored_transforms. rewrite Ed. apply (loop_entries es N [] data); [now rewrite J|exact Hf].
  - assert (K : forall key, fold_left apply_entry es (fun _ => []) key = map (fun q => "/"%char :: snd q) (filter (fun q => if list_eq_dec ascii_dec ("/"%char :: fst q) key then true else false) ps)).
    { intros key. rewrite (pairs_apply es ps P). cbn [app]. f_equal. apply filter_ext. intros q. destruct (list_eq_dec ascii_dec ("/"%char :: fst q) key) as [E|E]; [now apply str_eqb_eq|now apply str_eqb_neq]. }
    split; [exact K|]. intros from to. unfold should_skip. rewrite existsb_exists, K. split.
    + intros (x & I & E). apply str_eqb_eq in E as ->. apply in_map_iff in I as ((f & t) & <- & I). apply filter_In in I as [I E]. destruct (list_eq_dec _ _ _) as [E'|]; [|discriminate]. exists f, t. auto.
    + intros (f & t & I & -> & ->). exists ("/"%char :: t). split; [|now apply str_eqb_eq]. apply in_map_iff. exists (f, t). split; [reflexivity|]. apply filter_In. split; [exact I|]. cbn [fst]. now destruct (list_eq_dec _ _ _).
Qed.
Print Assumptions C53_ignored.
Example C53_example : exists m, tf_ignored_transforms 20 (set_all [(lit "in/odometry/ros/tf/ignore", lit "map-odom:bad:a-b-c:a-d:")]) = Ok m /\ m (lit "/a") = [lit "/b-c"; lit "/d"] /\ should_skip m (lit "/map") (lit "/odom") = true /\ should_skip m (lit "/odom") (lit "/map") = false.
Proof. eexists. split; [reflexivity|]. repeat split. Qed.
