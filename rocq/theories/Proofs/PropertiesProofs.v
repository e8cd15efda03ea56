(** Properties files, lookups and the tf ignore list. *)
From Coq Require Import Ascii String ZArith List Bool Lia.
From Verif.Base Require Import Outcome.
From Verif.Model Require Import Properties.
From Verif.Spec Require Import PropertiesSpec.
Import ListNotations.

Lemma str_eqb_eq a : forall b, str_eqb a b = true <-> a = b.
Proof.
  induction a as [|x a IH]; intros [|y b]; cbn [str_eqb]; try (split; congruence). rewrite andb_true_iff, Ascii.eqb_eq, IH. split; [intros [-> ->]; reflexivity|]. intros E. injection E as -> ->. auto.
Qed.
Lemma str_eqb_neq a b : str_eqb a b = false <-> a <> b.
Proof. rewrite <- (str_eqb_eq a b). destruct (str_eqb a b); split; congruence. Qed.

(** find *)
Lemma find_char_Some c s i : find_char c s = Some i <-> exists a b, s = a ++ c :: b /\ length a = i /\ ~ In c a.
Proof.
  revert i. induction s as [|x s IH]; intros i; cbn [find_char]; [split; [discriminate|]; intros (a & b & E & _); destruct a; discriminate|].
  destruct (Ascii.eqb x c) eqn:T.
  - apply Ascii.eqb_eq in T as ->. split.
    + intros E. injection E as <-. exists [], s. cbn. auto.
    + intros (a & b & E & <- & N). destruct a as [|y a]; [reflexivity|]. injection E as -> _. exfalso. apply N. now left.
  - apply Ascii.eqb_neq in T. split.
    + destruct (find_char c s) as [j|]; [|discriminate]. intros E. injection E as <-. destruct (proj1 (IH j) eq_refl) as (a & b & -> & <- & N). exists (x :: a), b. cbn. repeat split; auto. intros [E|I]; auto.
    + intros (a & b & E & <- & N). destruct a as [|y a]; [injection E as -> _; congruence|]. injection E as -> ->. rewrite (proj2 (IH (length a))); [reflexivity|]. exists a, b. repeat split; auto. intros I. apply N. now right.
Qed.
Lemma find_char_None c s : find_char c s = None <-> ~ In c s.
Proof.
  induction s as [|x s IH]; cbn [find_char]; [tauto|]. destruct (Ascii.eqb x c) eqn:T; [apply Ascii.eqb_eq in T as ->; split; [discriminate|intros N; exfalso; apply N; now left]|].
  apply Ascii.eqb_neq in T. destruct (find_char c s); split; try discriminate.
  - intros N. exfalso. assert (X : Some n = None); [|discriminate]. apply IH. intros I. apply N. now right.
  - intros _ [E|I]; [congruence|]. now apply IH.
  - reflexivity.
Qed.

(** lines *)
Definition ends (l : str) : str := l ++ [nl].
Lemma getlines_nl l s : no_nl l -> getlines (l ++ nl :: s) = l :: getlines s.
Proof.
  induction l as [|c l IH]; intros N; cbn [app getlines]; [now rewrite Ascii.eqb_refl|]. destruct (Ascii.eqb c nl) eqn:T; [apply Ascii.eqb_eq in T as ->; exfalso; apply N; now left|].
  rewrite IH; [reflexivity|]. intros I. apply N. now right.
Qed.
Lemma getlines_last l : no_nl l -> l <> [] -> getlines l = [l].
Proof.
  induction l as [|c l IH]; intros N E; [congruence|]. cbn [getlines]. destruct (Ascii.eqb c nl) eqn:T; [apply Ascii.eqb_eq in T as ->; exfalso; apply N; now left|].
  destruct l as [|d l]; [reflexivity|]. rewrite IH; [reflexivity| |discriminate]. intros I. apply N. now right.
Qed.
Lemma getlines_lines ls : Forall no_nl ls -> forall rest, getlines (concat (map ends ls) ++ rest) = ls ++ getlines rest.
Proof.
  induction 1 as [|l ls N _ IH]; intros rest; [reflexivity|]. cbn [map concat app]. unfold ends at 1. rewrite <- !app_assoc. cbn [app]. rewrite getlines_nl by exact N. now rewrite IH.
Qed.
Lemma lines_of_getlines text ls : lines_of text ls -> ls = getlines text.
Proof.
  intros (F & [->|(init & l & -> & NE & ->)]); change (fun l => l ++ [nl]) with ends.
  - rewrite <- (app_nil_r (concat _)), getlines_lines by exact F. cbn. now rewrite app_nil_r.
  - apply Forall_app in F as [F1 F2]. inversion F2; subst. rewrite getlines_lines, getlines_last by assumption. reflexivity.
Qed.
Lemma split_line s : (no_nl s) \/ exists l r, s = l ++ nl :: r /\ no_nl l.
Proof.
  destruct (find_char nl s) as [i|] eqn:E; [apply find_char_Some in E as (a & b & -> & _ & N); right; exists a, b; auto|left; now apply find_char_None in E].
Qed.
Lemma getlines_lines_of text : lines_of text (getlines text).
Proof.
  remember (length text) as n eqn:En. revert text En. induction n as [n IH] using lt_wf_ind. intros text ->. destruct (split_line text) as [N|(l & r & -> & N)].
  - destruct text as [|c t]; [split; [constructor|now left]|]. rewrite getlines_last by (auto; discriminate). split; [auto|]. right. exists [], (c :: t). repeat split; auto; discriminate.
  - rewrite getlines_nl by exact N. destruct (IH (length r) ltac:(rewrite app_length; cbn; lia) r eq_refl) as [F C]. split; [now constructor|]. destruct C as [C|(init & x & E & NE & C)].
    + left. cbn [map concat]. rewrite <- C, <- app_assoc. reflexivity.
    + right. exists (l :: init), x. rewrite E. split; [reflexivity|]. split; [exact NE|]. cbn [map concat]. rewrite C at 1. rewrite <- !app_assoc. reflexivity.
Qed.

(** the commands of lines *)
Lemma firstn_app_exact {A} (a b : list A) : firstn (length a) (a ++ b) = a.
Proof. rewrite firstn_app, Nat.sub_diag, firstn_all, firstn_O, app_nil_r. reflexivity. Qed.
Lemma skipn_app_exact {A} (a b : list A) : skipn (length a) (a ++ b) = b.
Proof. rewrite skipn_app, Nat.sub_diag, skipn_all. reflexivity. Qed.
Lemma read_define l id v : read_line l = Define id v <-> defines l id v.
Proof.
  unfold defines. destruct l as [|c rest]; cbn [read_line]; [split; [discriminate|]; intros (E & _); destruct id; discriminate|].
  destruct (Ascii.eqb c "#") eqn:T1; [apply Ascii.eqb_eq in T1 as ->|apply Ascii.eqb_neq in T1].
  { split; [discriminate|]. intros (E & _ & H). destruct id as [|d id]; [discriminate|]. injection E as <- _. destruct (H _ _ eq_refl). congruence. }
  destruct (Ascii.eqb c "<") eqn:T2; [apply Ascii.eqb_eq in T2 as ->|apply Ascii.eqb_neq in T2].
  { split; [destruct (Ascii.eqb _ _); discriminate|]. intros (E & _ & H). destruct id as [|d id]; [discriminate|]. injection E as <- _. destruct (H _ _ eq_refl). congruence. }
  split.
  - destruct (find_char "=" (c :: rest)) as [i|] eqn:F; [|discriminate]. intros E. apply find_char_Some in F as (a & b & EQ & <- & N). rewrite EQ in E. rewrite firstn_app_exact in E.
    assert (Es : skipn (S (length a)) (a ++ "="%char :: b) = b).
    { replace (a ++ "="%char :: b) with ((a ++ ["="%char]) ++ b) by (now rewrite <- app_assoc). replace (S (length a)) with (length (a ++ ["="%char])) by (rewrite app_length; cbn; lia). apply skipn_app_exact. }
    rewrite Es in E. injection E as <- <-. split; [exact EQ|]. split; [exact N|]. intros d s ->. injection EQ as <- _. auto.
  - intros (E & N & _). assert (F : find_char "=" (c :: rest) = Some (length id)) by (apply find_char_Some; exists id, v; auto). rewrite F, E, firstn_app_exact. f_equal.
    replace (id ++ "="%char :: v) with ((id ++ ["="%char]) ++ v) by (now rewrite <- app_assoc). replace (S (length id)) with (length (id ++ ["="%char])) by (rewrite app_length; cbn; lia). apply skipn_app_exact.
Qed.
Lemma read_include l f : read_line l = Include f <-> includes l f.
Proof.
  unfold includes. destruct l as [|c rest]; cbn [read_line]; [split; discriminate|].
  destruct (Ascii.eqb c "#") eqn:T1; [apply Ascii.eqb_eq in T1 as ->; split; [discriminate|]; intros E; discriminate|].
  destruct (Ascii.eqb c "<") eqn:T2; [apply Ascii.eqb_eq in T2 as ->|apply Ascii.eqb_neq in T2].
  - destruct rest as [|d rest]; [cbn; split; [discriminate|]; intros E; destruct f; discriminate|].
    destruct (exists_last (l := d :: rest)) as (i & e & EQ); [discriminate|]. rewrite EQ.
    assert (EL : last ("<"%char :: i ++ [e]) " "%char = e) by (change ("<"%char :: i ++ [e]) with (("<"%char :: i) ++ [e]); apply last_last). rewrite EL, removelast_last.
    destruct (Ascii.eqb e ">") eqn:T3; [apply Ascii.eqb_eq in T3 as ->|apply Ascii.eqb_neq in T3].
    + split; [intros E; injection E as ->; reflexivity|]. intros E. injection E as E. apply app_inv_tail in E as ->. reflexivity.
    + split; [discriminate|]. intros E. injection E as E. apply app_inj_tail in E as [_ E]. congruence.
  - destruct (find_char "=" (c :: rest)); (split; [discriminate|]); intros E; injection E as E _; congruence.
Qed.

(** reading files *)
Fixpoint own (ls : list str) (id : str) (l : option str) : option str :=
  match ls with [] => l | x :: ls => own ls id (match read_line x with Define k v => if str_eqb k id then Some v else l | _ => l end) end.
Fixpoint incs (ls : list str) : list str := match ls with [] => [] | x :: ls => match read_line x with Include f => f :: incs ls | _ => incs ls end end.
Lemma own_app a b id l : own (a ++ b) id l = own b id (own a id l).
Proof. revert l. induction a as [|x a IH]; intros l; cbn [app own]; auto. Qed.
Lemma own_none ls id l : (forall x w, In x ls -> ~ defines x id w) -> own ls id l = l.
Proof.
  revert l. induction ls as [|x ls IH]; intros l H; cbn [own]; [reflexivity|]. rewrite IH by (intros; apply H; now right). destruct (read_line x) as [|f|k v] eqn:E; try reflexivity.
  destruct (str_eqb k id) eqn:T; [|reflexivity]. apply str_eqb_eq in T as ->. exfalso. apply (H x v); [now left|]. now apply read_define.
Qed.
Lemma own_spec ls id : own_value ls id (own ls id None).
Proof.
  induction ls as [|x ls IH] using rev_ind; [intros l w []|]. rewrite own_app. cbn [own].
  destruct (read_line x) as [|f|k v] eqn:E.
  3: destruct (str_eqb k id) eqn:T; [apply str_eqb_eq in T as ->; apply read_define in E; exists ls, x, []; split; [reflexivity|split; [exact E|intros ? ? []]]|].
  all: assert (ND : forall w, ~ defines x id w) by (intros w D; apply read_define in D; rewrite E in D; try discriminate; injection D as -> ->; apply str_eqb_neq in T; congruence).
  all: destruct (own ls id None) as [v0|]; [destruct IH as (l1 & l & l2 & -> & D & H); exists l1, l, (l2 ++ [x]); rewrite <- app_assoc; split; [reflexivity|split; [exact D|intros l' w I; apply in_app_iff in I as [I|[<-|[]]]; auto]]|].
  all: intros l w I; apply in_app_iff in I as [I|[<-|[]]]; auto; now apply IH.
Qed.
Lemma own_unique ls id v : own_value ls id v -> v = own ls id None.
Proof.
  destruct v as [v|]; cbn [own_value].
  - intros (l1 & l & l2 & -> & D & H). rewrite own_app. cbn [own]. apply read_define in D. rewrite D, (proj2 (str_eqb_eq id id) eq_refl). now rewrite own_none.
  - intros H. now rewrite own_none.
Qed.
Lemma incs_included ls : included ls (incs ls).
Proof.
  induction ls as [|x ls IH]; cbn [incs]; [constructor|]. destruct (read_line x) as [|f|k v] eqn:E; try (apply inc_skip; [|exact IH]; intros f' I; apply read_include in I; congruence).
  apply inc_line; [now apply read_include|exact IH].
Qed.
Section Files.
  Variable fs : str -> option str.
  Variable dirname : str -> str.
  Fixpoint order (h : nat) (path : str) : list str :=
    match h with O => [] | S h => match fs path with None => [] | Some t => flat_map (order h) (map (included_path dirname path) (incs (getlines t))) ++ [path] end end.
  Fixpoint order_spec h {struct h} : forall path, read_order fs dirname h path (order h path).
  Proof.
    destruct h as [|h]; intros path; cbn [order]; [constructor|]. destruct (fs path) as [t|] eqn:E; [|now constructor].
    eapply ro_file; [exact E|apply getlines_lines_of|apply incs_included|]. change (map (fun f => dirname path ++ "/"%char :: f)) with (map (included_path dirname path)).
    generalize (map (included_path dirname path) (incs (getlines t))). intros ps. induction ps as [|p ps IH]; cbn [flat_map]; constructor; [apply order_spec|exact IH].
  Qed.
  Definition file_own (path id : str) : option str := match fs path with None => None | Some t => own (getlines t) id None end.
  Fixpoint first_of (files : list str) (id : str) : option str := match files with [] => None | f :: fs' => match file_own f id with Some v => Some v | None => first_of fs' id end end.
  Lemma first_app a b id : first_of (a ++ b) id = match first_of a id with Some v => Some v | None => first_of b id end.
  Proof. induction a as [|f a IH]; cbn [app first_of]; [reflexivity|]. destruct (file_own f id); auto. Qed.
  Lemma append_spec h : forall path g id, append_file_content fs dirname h path g id = match g id with Some v => Some v | None => first_of (order h path) id end.
  Proof.
    induction h as [|h IH]; intros path g id; cbn [append_file_content order first_of]; [unfold append_props, no_props; now destruct (g id)|].
    destruct (fs path) as [t|] eqn:E; [|unfold append_props, no_props; now destruct (g id)].
    assert (P : forall ls g l, exists g' l', parse_lines dirname (append_file_content fs dirname h) path ls g l = (g', l') /\
      (forall id, g' id = match g id with Some v => Some v | None => first_of (flat_map (order h) (map (included_path dirname path) (incs ls))) id end) /\ (forall id, l' id = own ls id (l id))).
    { induction ls as [|x ls IHl]; intros g0 l0; cbn [parse_lines incs own map flat_map]; [exists g0, l0; repeat split; auto; intros; cbn [first_of]; now destruct (g0 id0)|].
      destruct (read_line x) as [|f|k v].
      - destruct (IHl g0 l0) as (g' & l' & EQ & A & B). exists g', l'. auto.
      - cbn [map flat_map]. destruct (IHl (append_file_content fs dirname h (included_path dirname path f) g0) l0) as (g' & l' & EQ & A & B). exists g', l'. split; [exact EQ|]. split; [|exact B].
        intros id0. rewrite A, IH, first_app. destruct (g0 id0); [reflexivity|]. reflexivity.
      - destruct (IHl g0 (set_property l0 k v)) as (g' & l' & EQ & A & B). exists g', l'. split; [exact EQ|]. split; [exact A|]. intros id0. rewrite B. unfold set_property. reflexivity. }
    destruct (P (getlines t) g no_props) as (g' & l' & -> & A & B). unfold append_props. rewrite A, B, first_app. cbn [first_of]. unfold file_own. rewrite E.
    destruct (g id); [reflexivity|]. destruct (first_of _ id); [reflexivity|]. now destruct (own _ _ _).
  Qed.
  Lemma file_own_value path id v : fs path <> None -> file_value fs path id v <-> v = file_own path id.
  Proof.
    intros NE. unfold file_value, file_own. destruct (fs path) as [t|]; [|congruence]. split.
    - intros (t' & ls & E & L & O). injection E as <-. apply lines_of_getlines in L as ->. now apply own_unique.
    - intros ->. exists t, (getlines t). split; [reflexivity|]. split; [apply getlines_lines_of|apply own_spec].
  Qed.
  Lemma order_exist h : forall path f, In f (order h path) -> fs f <> None.
  Proof.
    induction h as [|h IH]; intros path f; cbn [order]; [intros []|]. destruct (fs path) as [t|] eqn:E; [|intros []]. intros I. apply in_app_iff in I as [I|[<-|[]]]; [|congruence].
    apply in_flat_map in I as (p & _ & I). now apply (IH p).
  Qed.
  Lemma first_spec files id v : (forall f, In f files -> fs f <> None) -> first_value fs files id v <-> v = first_of files id.
  Proof.
    intros NE. induction files as [|f files IH]; cbn [first_of].
    - destruct v as [v|]; cbn [first_value]; [split; [|discriminate]|split; [reflexivity|intros _ f []]]. intros (f1 & f & f2 & E & _). destruct f1; discriminate.
    - specialize (IH (fun g I => NE g (or_intror I))). assert (F := file_own_value f id). assert (NF := NE f (or_introl eq_refl)).
      destruct (file_own f id) as [w|] eqn:O.
      + split.
        * destruct v as [v|]; cbn [first_value].
          -- intros (f1 & g & f2 & E & V & H). destruct f1 as [|x f1]; [injection E as <- _; now apply F in V|]. injection E as <- _. assert (X := H f (or_introl eq_refl)). apply (F None NF) in X. congruence.
          -- intros H. assert (X := H f (or_introl eq_refl)). apply (F None NF) in X. congruence.
        * intros ->. exists [], f, files. split; [reflexivity|]. split; [now apply F|intros ? []].
      + rewrite <- IH. destruct v as [v|]; cbn [first_value].
        * split.
          -- intros (f1 & g & f2 & E & V & H). destruct f1 as [|x f1]; [injection E as <- _; apply F in V; [discriminate|exact NF]|]. injection E as <- ->. exists f1, g, f2. split; [reflexivity|]. split; [exact V|]. intros f' I. apply H. now right.
          -- intros (f1 & g & f2 & -> & V & H). exists (f :: f1), g, f2. split; [reflexivity|]. split; [exact V|]. intros f' [<-|I]; [now apply F|now apply H].
        * split; [intros H f' I; apply H; now right|]. intros H f' [<-|I]; [now apply F|now apply H].
  Qed.
  (* the order is determined *)
  Lemma included_incs ls l : included ls l -> l = incs ls.
  Proof.
    induction 1 as [|x ls f l I _ IH|x ls l N _ IH]; cbn [incs]; [reflexivity|apply read_include in I; rewrite I; now f_equal|].
    destruct (read_line x) eqn:E; auto. apply read_include in E. now apply N in E.
  Qed.
  Lemma read_order_unique h : forall path files, read_order fs dirname h path files -> files = order h path.
  Proof.
    induction h as [|h IH]; intros path files R; inversion R as [|? ? E|? ? t ls is files' E L I A]; subst; cbn [order]; [reflexivity|now rewrite E|]. rewrite E. f_equal.
    apply lines_of_getlines in L as ->. apply included_incs in I as ->. change (map (fun f => dirname path ++ "/"%char :: f)) with (map (included_path dirname path)) in A. clear R E.
    revert files' A. generalize (map (included_path dirname path) (incs (getlines t))). induction l as [|p ps IHp]; intros files' A; inversion A as [|? ? ? ? ? R1 A1]; subst; cbn [flat_map]; [reflexivity|]. rewrite (IH _ _ R1), (IHp _ A1). reflexivity.
  Qed.
End Files.

(** histories of settings *)
Definition after (h : list (str * str)) : props := fold_left (fun p kv => set_property p (fst kv) (snd kv)) h no_props.
Lemma after_spec h id : last_set h id (after h id).
Proof.
  unfold after. induction h as [|[k v] h IH] using rev_ind; [intros w []|]. rewrite fold_left_app. cbn [fold_left fst snd]. unfold set_property at 1.
  destruct (str_eqb k id) eqn:T.
  - apply str_eqb_eq in T as ->. exists h, []. split; [reflexivity|]. intros w [].
  - apply str_eqb_neq in T. destruct (fold_left _ h no_props id) as [w|]; cbn [last_set] in *.
    + destruct IH as (h1 & h2 & -> & N). exists h1, (h2 ++ [(k, v)]). rewrite <- app_assoc. split; [reflexivity|]. intros w' I. apply in_app_iff in I as [I|[I|[]]]; [now apply (N w')|]. injection I as -> _. congruence.
    + intros w I. apply in_app_iff in I as [I|[I|[]]]; [now apply (IH w)|]. injection I as -> _. congruence.
Qed.

(** numbers *)
Lemma digit_spec c d : digit c = Some d <-> is_digit c d.
Proof.
  unfold digit, is_digit. set (n := Z.of_N (N_of_ascii c)). destruct ((48 <=? n) && (n <=? 57))%Z eqn:T.
  - apply andb_true_iff in T as [A B]. apply Z.leb_le in A. apply Z.leb_le in B. split; [intros E; injection E as <-; lia|]. intros [C D]. f_equal. lia.
  - apply andb_false_iff in T. split; [discriminate|]. intros [C D]. destruct T as [T|T]; apply Z.leb_gt in T; lia.
Qed.
Lemma digits_rest s rest : not_digit_first rest -> forall z, decimal s z -> digits_from 0 (s ++ rest) = z /\ starts_with_digit (s ++ rest) = true.
Proof.
  intros NR. assert (R : forall acc, digits_from acc rest = acc).
  { intros acc. destruct rest as [|c r]; [reflexivity|]. cbn [digits_from]. destruct (digit c) as [d|] eqn:E; [|reflexivity]. apply digit_spec in E. exfalso. exact (NR c r d eq_refl E). }
  intros z D. enough (X : forall more, (forall acc, exists k, digits_from acc more = k) -> digits_from 0 (s ++ more) = digits_from z more /\ starts_with_digit (s ++ more) = true).
  { destruct (X rest) as [A B]; [eauto|]. rewrite A, R. auto. }
  induction D as [c d H|s z c d D IH H]; intros more _.
  - apply digit_spec in H. cbn [app digits_from starts_with_digit]. rewrite H. auto.
  - rewrite <- app_assoc. cbn [app]. destruct (IH (c :: more)) as [A B]; [eauto|]. rewrite A. cbn [digits_from]. apply digit_spec in H. rewrite H. auto.
Qed.
Lemma is_space_spec c : is_space c = true <-> blank c.
Proof.
  unfold is_space, blank. rewrite orb_true_iff, andb_true_iff, Z.eqb_eq, !Z.leb_le. split; intros [H|H]; auto; left.
  - rewrite <- (ascii_N_embedding c). replace (N_of_ascii c) with 32%N by lia. reflexivity.
  - subst. reflexivity.
Qed.
Lemma decimal_first s z : decimal s z -> exists c t d, s = c :: t /\ is_digit c d.
Proof. induction 1 as [c d H|s z c d D (x & t & e & -> & H1) H]; [exists c, [], d; auto|]. exists x, (t ++ [c]), e. auto. Qed.
Lemma skip_blanks b s c t : Forall blank b -> s = c :: t -> is_space c = false -> skip_spaces (b ++ s) = s.
Proof. intros F -> N. induction F as [|x b H _ IH]; cbn [app skip_spaces]; [now rewrite N|]. apply is_space_spec in H. now rewrite H. Qed.
Lemma digit_not_space c d : is_digit c d -> is_space c = false /\ Ascii.eqb c "-" = false /\ Ascii.eqb c "+" = false.
Proof.
  intros [A B]. assert (M : Z.of_N (N_of_ascii "-") = 45%Z) by reflexivity. assert (P : Z.of_N (N_of_ascii "+") = 43%Z) by reflexivity.
  split; [|split; apply Ascii.eqb_neq; intros ->; rewrite ?M, ?P in B; lia]. unfold is_space. rewrite B. destruct (48 + d =? 32)%Z eqn:T; [apply Z.eqb_eq in T; lia|]. destruct (48 + d <=? 13)%Z eqn:T2; [apply Z.leb_le in T2; lia|]. now rewrite andb_false_r.
Qed.
Lemma parse_unsigned b s z rest : Forall blank b -> decimal s z -> not_digit_first rest -> parse_number (b ++ s ++ rest) = Ok (false, z).
Proof.
  intros F D N. destruct (decimal_first s z D) as (c & t & d & E & Hd). destruct (digit_not_space c d Hd) as (H1 & H2 & H3). destruct (digits_rest s rest N z D) as [A B].
  unfold parse_number. rewrite (skip_blanks b (s ++ rest) c (t ++ rest)); [|exact F|now rewrite E|exact H1]. unfold take_sign. rewrite E in *. cbn [app] in *. rewrite H2, H3. now rewrite A, B.
Qed.
Lemma parse_signed b (neg : bool) s z rest : Forall blank b -> decimal s z -> not_digit_first rest -> parse_number (b ++ (if neg then "-" else "+")%char :: s ++ rest) = Ok (neg, z).
Proof.
  intros F D N. destruct (digits_rest s rest N z D) as [A B]. unfold parse_number.
  rewrite (skip_blanks b _ (if neg then "-" else "+")%char (s ++ rest)); [|exact F|reflexivity|now destruct neg]. destruct neg; cbn [take_sign Ascii.eqb Bool.eqb]; now rewrite A, B.
Qed.

(** the tf ignore list *)
Definition apply_entry (m : ignores) (e : str) : ignores :=
  match find_char "-" e with None => m | Some k => add_ignore m (lit "/" ++ firstn k e) (lit "/" ++ skipn (k + 1) e) end.
Lemma loop_entries es : Forall (fun e => ~ In ":"%char e) es -> forall pre data m fuel, data = pre ++ join es -> (length es < fuel)%nat ->
  ignore_loop fuel data (length pre) m = Ok (fold_left apply_entry es m).
Proof.
  induction 1 as [|e es N _ IH]; intros pre data m fuel E Hf.
  - cbn [join] in E. rewrite app_nil_r in E. subst data. destruct fuel as [|fuel]; [cbn in Hf; lia|]. cbn [ignore_loop fold_left]. now rewrite Nat.ltb_irrefl.
  - destruct fuel as [|fuel]; [lia|]. cbn [ignore_loop].
    assert (ST : forall rest m', data = pre ++ e ++ rest -> (rest = [] \/ exists r, rest = ":"%char :: r) -> forall X, 
       ((length pre <? length data)%nat = true ->
        ignore_loop fuel data (length pre + length e + 1) (apply_entry m e) = X) -> ((length pre <? length data)%nat = false -> Ok m = X) -> m' = m ->
       (if (length pre <? length data)%nat then
          let sep := match find_from ":" data (length pre) with Some k => k | None => length data end in
          bind (substr data (length pre) (sep - length pre)) (fun entry =>
            match find_char "-" entry with
            | None => ignore_loop fuel data (sep + 1) m
            | Some k => bind (substr entry 0 k) (fun from => bind (substr entry (k + 1) (length entry - k - 1)) (fun to => ignore_loop fuel data (sep + 1) (add_ignore m (lit "/" ++ from) (lit "/" ++ to))))
            end)
        else Ok m) = X).
    { intros rest m' Ed Hr X H1 H2 _. destruct (length pre <? length data)%nat eqn:T; [|now apply H2]. rewrite <- H1 by reflexivity. clear H1 H2 X.
      assert (Ls : length data = (length pre + length e + length rest)%nat) by (rewrite Ed, !app_length; lia).
      assert (SK : skipn (length pre) data = e ++ rest) by (rewrite Ed; apply skipn_app_exact).
      assert (Esep : match find_from ":" data (length pre) with Some k => k | None => length data end = (length pre + length e)%nat).
      { unfold find_from. rewrite SK. destruct Hr as [->|(r & ->)].
        - rewrite app_nil_r. rewrite (proj2 (find_char_None ":" e) N). rewrite Ls. cbn. lia.
        - assert (F : find_char ":" (e ++ ":"%char :: r) = Some (length e)) by (apply find_char_Some; exists e, r; auto). now rewrite F. }
      cbv zeta. rewrite Esep. unfold substr at 1. destruct (Nat.ltb_spec (length data) (length pre)); [lia|]. cbn [bind].
      replace (length pre + length e - length pre)%nat with (length e) by lia. rewrite SK, firstn_app_exact. unfold apply_entry.
      destruct (find_char "-" e) as [k|] eqn:F; [|reflexivity]. apply find_char_Some in F as (a & b & -> & <- & _).
      unfold substr at 1. cbn [Nat.ltb Nat.leb skipn bind]. rewrite firstn_app_exact. rewrite app_length. cbn [length].
      unfold substr at 1. destruct (Nat.ltb_spec (length (a ++ "-"%char :: b)) (length a + 1)); [rewrite app_length in *; cbn [length] in *; lia|]. cbn [bind].
      assert (SB : skipn (length a + 1) (a ++ "-"%char :: b) = b).
      { replace (a ++ "-"%char :: b) with ((a ++ ["-"%char]) ++ b) by (now rewrite <- app_assoc). replace (length a + 1)%nat with (length (a ++ ["-"%char])) by (rewrite app_length; cbn; lia). apply skipn_app_exact. }
      rewrite SB. replace (length a + S (length b) - length a - 1)%nat with (length b) by lia. now rewrite firstn_all. }
    destruct es as [|e2 es].
    + cbn [join] in E. apply (ST [] m); [now rewrite app_nil_r|now left| | |reflexivity].
      * intros _. cbn [fold_left]. destruct fuel as [|fuel]; [cbn in Hf; lia|]. cbn [ignore_loop]. destruct (Nat.ltb_spec (length pre + length e + 1) (length data)) as [L|L]; [rewrite E, app_length in L; lia|reflexivity].
      * intros T. apply Nat.ltb_ge in T. rewrite E, app_length in T. destruct e as [|c e]; [reflexivity|]. cbn in T. lia.
    + cbn [join] in E. apply (ST (":"%char :: join (e2 :: es)) m); [exact E|right; eauto| | |reflexivity].
      * intros _. cbn [fold_left]. specialize (IH (pre ++ e ++ [":"%char]) data (apply_entry m e) fuel). rewrite !app_length in IH. cbn [length] in IH. rewrite Nat.add_assoc in IH. rewrite IH; [reflexivity| |cbn [length] in *; lia].
        rewrite E, <- !app_assoc. reflexivity.
      * intros T. apply Nat.ltb_ge in T. rewrite E, !app_length in T. cbn [length] in T. lia.
Qed.
Lemma pairs_apply es ps : frame_pairs es ps -> forall m key, fold_left apply_entry es m key = m key ++ map (fun p => lit "/" ++ snd p) (filter (fun p => str_eqb (lit "/" ++ fst p) key) ps).
Proof.
  induction 1 as [|from to es ps N _ IH|e es ps N _ IH]; intros m key; cbn [fold_left].
  - cbn. now rewrite app_nil_r.
  - rewrite IH. unfold apply_entry. assert (F : find_char "-" (from ++ "-"%char :: to) = Some (length from)) by (apply find_char_Some; exists from, to; auto). rewrite F.
    rewrite firstn_app_exact.
    assert (SB : skipn (length from + 1) (from ++ "-"%char :: to) = to).
    { replace (from ++ "-"%char :: to) with ((from ++ ["-"%char]) ++ to) by (now rewrite <- app_assoc). replace (length from + 1)%nat with (length (from ++ ["-"%char])) by (rewrite app_length; cbn; lia). apply skipn_app_exact. }
    rewrite SB. unfold add_ignore. cbn [filter fst]. destruct (str_eqb (lit "/" ++ from) key); [|reflexivity]. cbn [map snd]. now rewrite <- app_assoc.
  - rewrite IH. unfold apply_entry. now rewrite (proj2 (find_char_None "-" e) N).
Qed.
Lemma entries_exist data : exists es, entries data es.
Proof.
  remember (length data) as n eqn:En. revert data En. induction n as [n IH] using lt_wf_ind. intros data ->. destruct (find_char ":" data) as [i|] eqn:F.
  - apply find_char_Some in F as (a & b & -> & _ & N). destruct (IH (length b) ltac:(rewrite app_length; cbn; lia) b eq_refl) as (es & A & B).
    destruct es as [|e es]; [exists [a; []]; split; [repeat constructor; auto|]; cbn [join]; cbn in B; now subst b|]. exists (a :: e :: es). split; [now constructor|]. change (join (a :: e :: es)) with (a ++ ":"%char :: join (e :: es)). now rewrite B.
  - exists [data]. split; [constructor; [now apply find_char_None|constructor]|reflexivity].
Qed.
Lemma pairs_exist es : exists ps, frame_pairs es ps.
Proof.
  induction es as [|e es (ps & IH)]; [exists []; constructor|]. destruct (find_char "-" e) as [i|] eqn:F.
  - apply find_char_Some in F as (a & b & -> & _ & N). exists ((a, b) :: ps). now constructor.
  - exists ps. apply fp_other; [now apply find_char_None|exact IH].
Qed.
