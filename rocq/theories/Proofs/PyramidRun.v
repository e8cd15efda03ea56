(** Histories of multi-resolution maps. *)
From Coq Require Import Reals ZArith List Lia Lra Bool.
From Flocq Require Import Core.
From Verif.Base Require Import Outcome Num OrdLaws EReal.
From Verif.Model Require Import MathUtils Geometry Grid Histogram Pyramid.
From Verif.Spec Require Import PyramidSpec.
From Verif.Proofs Require Import GridProofs HistProofs PyramidProofs PyramidShape.
Import ListNotations.
Local Open Scope Z_scope.

(** ** choice of a level *)
Section Choice.
  Context {D C : Type} {ops : DOps D}.
  Variable proto : C.
  Lemma find_level_Ok (ls : list (level D C)) t : forall n id, find_level ls t n = Ok id ->
    exists l, (n <= id)%nat /\ nth_error ls (id - n) = Some l /\ dle t (lv_scale l) = true /\
      forall j k, (j < id - n)%nat -> nth_error ls j = Some k -> dle t (lv_scale k) = false.
  Proof.
    induction ls as [|l ls IH]; intros n id; cbn [find_level]; [discriminate|].
    destruct (dle t (lv_scale l)) eqn:T.
    - intros E. injection E as <-. exists l. rewrite Nat.sub_diag. repeat split; auto. intros; lia.
    - intros E. apply IH in E as (l' & A & B & E1 & F). exists l'. split; [lia|].
      replace (id - n)%nat with (Datatypes.S (id - Datatypes.S n)) by lia. repeat split; auto.
      intros [|j] k Hj; cbn [nth_error]; [congruence|]. apply F. lia.
  Qed.
  Lemma find_level_total (ls : list (level D C)) t : forall n, (exists l, In l ls /\ dle t (lv_scale l) = true) -> exists id, find_level ls t n = Ok id.
  Proof.
    induction ls as [|l ls IH]; intros n (x & I & T); cbn [find_level]; [destruct I|].
    destruct (dle t (lv_scale l)) eqn:E; [eauto|]. apply IH. destruct I as [->|I]; [congruence|eauto].
  Qed.
  Lemma set_scale_Ok p id q : set_scale_id proto p id = Ok q ->
    ensure_continuous proto (py_levels p) = Ok (py_levels q) /\ py_active q = id /\ (id < length (py_levels q))%nat.
  Proof.
    unfold set_scale_id. intros E. apply bind_Ok_inv in E as (ls & E1 & E). apply bind_Ok_inv in E as ([] & A & E). injection E as <-.
    unfold assert_ in A. destruct (Nat.ltb_spec id (length ls)); [|discriminate]. auto.
  Qed.
  (** adding levels twice is adding them once *)
  Lemma ge_pow_loop_ge fuel n i : forall z p, ge_pow_loop fuel n i z = Ok p -> i <= p.
  Proof.
    induction fuel as [|fuel IH]; intros z p; cbn [ge_pow_loop]; [discriminate|]. destruct (Z.ltb_spec z i); [apply IH|]. intros E. now injection E as <-.
  Qed.
  Lemma new_levels_last fuel : forall w h (sc : D) ls, new_levels proto fuel w h sc = Ok ls ->
    (ls = [] /\ w <= 2 /\ h <= 2) \/ exists pc, nth_error ls (length ls - 1) = Some pc /\ (0 < length ls)%nat /\ lv_w pc <= 2 /\ lv_h pc <= 2.
  Proof.
    induction fuel as [|fuel IH]; intros w h sc ls; cbn [new_levels]; destruct (_ || _) eqn:T; try discriminate.
    1,3: intros E; injection E as <-; left; apply orb_false_iff in T as [T1 T2]; apply Z.ltb_ge in T1; apply Z.ltb_ge in T2; auto.
    intros E. apply bind_Ok_inv in E as (l & E & E'). injection E' as <-. right. apply IH in E as [(-> & A & B)|(pc & N & L & A & B)].
    - eexists. cbn. split; [reflexivity|]. split; [lia|]. auto.
    - exists pc. cbn [length]. split; [|split; [lia|auto]]. replace (Datatypes.S (length l) - 1)%nat with (Datatypes.S (length l - 1)) by lia. exact N.
  Qed.
  Lemma ensure_idem (ls ls' : list (level D C)) : ensure_continuous proto ls = Ok ls' -> ensure_continuous proto ls' = Ok ls'.
  Proof.
    intros E. assert (E0 := E). unfold ensure_continuous in E. destruct (Nat.ltb_spec (length ls) 2) as [H|H]; [congruence|].
    destruct (nth_error ls (length ls - 2)) as [pc|] eqn:N; [|discriminate]. destruct (_ && _) eqn:T; [congruence|].
    apply bind_Ok_inv in E as (w & Ew & E). apply bind_Ok_inv in E as (h & Eh & E). apply bind_Ok_inv in E as (new & En & E).
    assert (X : ls' = firstn (Datatypes.S (length ls - 2)) ls ++ new ++ skipn (Datatypes.S (length ls - 2)) ls) by congruence. clear E E0.
    replace (Datatypes.S (length ls - 2)) with (length ls - 1)%nat in X by lia.
    apply new_levels_last in En as [(-> & A & B)|(pc' & N' & Ln & A & B)].
    - apply ge_pow_loop_ge in Ew. apply ge_pow_loop_ge in Eh. apply andb_false_iff in T as [T|T]; apply Z.leb_gt in T; lia.
    - assert (LL : length ls' = (length ls + length new)%nat) by (rewrite X, !app_length, firstn_length, skipn_length; lia).
      unfold ensure_continuous. rewrite LL. destruct (Nat.ltb_spec (length ls + length new) 2); [lia|].
      replace (nth_error ls' (length ls + length new - 2)) with (Some pc').
      + destruct (Z.leb_spec (lv_w pc') 2); [|lia]. destruct (Z.leb_spec (lv_h pc') 2); [|lia]. reflexivity.
      + rewrite X, nth_mid by lia. destruct (Nat.ltb_spec (length ls + length new - 2) (length ls - 1)); [lia|].
        destruct (Nat.ltb_spec (length ls + length new - 2) (length ls - 1 + length new)); [|lia]. rewrite <- N'. f_equal. lia.
  Qed.
  Lemma rescale_Ok p t q : rescale proto p t = Ok q -> ensure_continuous proto (py_levels p) = Ok (py_levels q) /\
    exists l, nth_error (py_levels q) (py_active q) = Some l /\ dle t (lv_scale l) = true /\
      forall j k, (j < py_active q)%nat -> nth_error (py_levels q) j = Some k -> dle t (lv_scale k) = false.
  Proof.
    intros E. unfold rescale in E. apply bind_Ok_inv in E as (ls & E1 & E). apply bind_Ok_inv in E as (id & F & E).
    apply set_scale_Ok in E as (E & A & B). cbn [py_levels] in E. rewrite (ensure_idem _ _ E1) in E. injection E as E. rewrite <- E. split; [exact E1|].
    apply find_level_Ok in F as (l & _ & N & T1 & T2). rewrite Nat.sub_0_r in *. rewrite A. exists l. repeat split; auto.
  Qed.
  Lemma find_level_nan (ls : list (level D C)) t : (forall x, dle t x = false) -> forall n, find_level ls t n = UB.
  Proof. intros H. induction ls as [|l ls IH]; intros n; cbn [find_level]; [reflexivity|]. rewrite H. apply IH. Qed.
End Choice.

Lemma in_mid {A} (ls new : list A) K x : In x (firstn K ls ++ new ++ skipn K ls) <-> In x ls \/ In x new.
Proof. rewrite !in_app_iff. rewrite <- (firstn_skipn K ls) at 3. rewrite in_app_iff. tauto. Qed.
Lemma side_pos w m : 1 <= side w m.
Proof. unfold side. lia. Qed.

(** ** the structure kept by all uses, for maps of any growth *)
Section Structure.
  Context {C : Type}.
  Variables (proto : C) (grow : Z -> Z -> coord -> coord -> Z * Z * coord) (impact : C -> ER) (is_unknown : C -> bool) (s : R).
  Hypothesis s_pos : (0 < s)%R.
  Hypothesis grow_pos : forall w h o c w' h' o', 1 <= w -> 1 <= h -> grow w h o c = (w', h', o') -> 1 <= w' /\ 1 <= h'.
  Local Notation lev := (level ER C).
  Definition sized (ls : list lev) : Prop := forall l, In l ls -> 1 <= lv_w l /\ 1 <= lv_h l.

  Lemma ensure_sized K ls ls' : levels_of s K ls -> sized ls -> ensure_continuous proto ls = Ok ls' ->
    exists new, ls' = firstn K ls ++ new ++ skipn K ls /\ levels_of s (K + length new) ls' /\ sized ls' /\ cont ls' /\
      forall l, In l new -> forall q, lv_cells l q = proto.
  Proof.
    intros L Sz E. destruct (ensure_levels proto s K ls ls' L E Sz) as (new & -> & L' & Co & Hn). exists new. split; [reflexivity|]. split; [exact L'|]. split; [|split; [exact Co|]].
    - intros l I. apply in_mid in I as [I|I]; [now apply Sz|]. apply In_nth_error in I as [m N]. destruct (Hn m l N) as (pc & a & b & _ & _ & _ & _ & _ & -> & -> & _ & _).
      split; apply side_pos.
    - intros l I. apply In_nth_error in I as [m N]. destruct (Hn m l N) as (pc & a & b & _ & _ & _ & _ & _ & _ & _ & _ & Hq). exact Hq.
  Qed.
  Lemma write_scale (l : lev) c v : lv_scale (write_cell grow l c v) = lv_scale l.
  Proof. unfold write_cell. destruct (grow _ _ _ _) as [[? ?] ?]. reflexivity. Qed.
  Lemma write_sized (l : lev) c v : 1 <= lv_w l /\ 1 <= lv_h l -> 1 <= lv_w (write_cell grow l c v) /\ 1 <= lv_h (write_cell grow l c v).
  Proof. unfold write_cell. destruct (grow _ _ _ _) as [[w' h'] o'] eqn:E. cbn [lv_w lv_h]. intros [A B]. exact (grow_pos _ _ _ _ _ _ _ A B E). Qed.
  Lemma upd_levels K ls i l l' : nth_error ls i = Some l -> lv_scale l' = lv_scale l -> (1 <= lv_w l' /\ 1 <= lv_h l') -> levels_of s K ls -> sized ls ->
    levels_of s K (upd ls i (fun _ => l')) /\ sized (upd ls i (fun _ => l')).
  Proof.
    intros N Sc Sz (HK & L & Sh) Z0. assert (B : (i < length ls)%nat) by (apply nth_error_Some; congruence). split; [split; [exact HK|]; split|].
    - now rewrite upd_length.
    - intros k x. rewrite upd_nth by exact B. destruct (Nat.eqb_spec k i) as [->|]; [|apply Sh]. rewrite N. cbn [option_map]. intros E. injection E as <-. rewrite Sc. now apply Sh.
    - intros x I. apply In_nth_error in I. destruct I as [k Nk]. rewrite upd_nth in Nk by exact B. destruct (Nat.eqb_spec k i) as [Ek|].
      + subst k. rewrite N in Nk. cbn in Nk. injection Nk as <-. exact Sz.
      + apply Z0. eapply nth_error_In; eauto.
  Qed.

  (** [ls] has become [ls'] by writes and added levels *)
  Definition evolves (K : nat) (ls : list lev) (K' : nat) (ls' : list lev) : Prop :=
    (K <= K')%nat /\ levels_of s K' ls' /\ sized ls'.
  Lemma raise_levels_evolves fuel : forall K ls id r v ls', levels_of s K ls -> sized ls ->
    raise_levels proto grow impact is_unknown fuel ls id r v = Ok ls' -> exists K', evolves K ls K' ls'.
  Proof.
    induction fuel as [|fuel IH]; intros K ls id r v ls' L Sz E; cbn [raise_levels] in E;
      apply bind_Ok_inv in E as (ls1 & E1 & E); destruct (ensure_sized K ls ls1 L Sz E1) as (new & _ & L1 & Sz1 & _);
      destruct (nth_error ls1 id) as [l|] eqn:N; try discriminate; try (injection E as <-; exists (K + length new)%nat; split; [lia|auto]; fail).
    apply bind_Ok_inv in E as (cs & _ & E).
    assert (RC : forall cs (l : lev) b, 1 <= lv_w l /\ 1 <= lv_h l -> let '(l', _) := raise_cells grow impact is_unknown l cs v b in lv_scale l' = lv_scale l /\ 1 <= lv_w l' /\ 1 <= lv_h l').
    { clear - grow_pos. induction cs as [|c cs IH]; intros l b Hl; cbn [raise_cells]; [auto|]. destruct (_ && _); [now apply IH|].
      specialize (IH (write_cell grow l c v) true (write_sized l c v Hl)). destruct (raise_cells _ _ _ _ _ _ _) as [l' b']. rewrite write_scale in IH. exact IH. }
    assert (Hl : 1 <= lv_w l /\ 1 <= lv_h l) by (apply Sz1; eapply nth_error_In; eauto).
    specialize (RC cs l false Hl). destruct (raise_cells _ _ _ _ _ _ _) as [l' updated]. destruct RC as (R1 & R2).
    destruct (upd_levels _ ls1 id l l' N R1 R2 L1 Sz1) as [L2 Sz2]. destruct updated.
    - apply IH with (K := (K + length new)%nat) in E; auto. destruct E as (K' & A & B). exists K'. split; [lia|exact B].
    - injection E as <-. exists (K + length new)%nat. split; [lia|auto].
  Qed.
  Definition good (K : nat) (p : pyramid ER C) : Prop := levels_of s K (py_levels p) /\ sized (py_levels p) /\ (py_active p <= K)%nat.
  Lemma ensure_good K p ls : good K p -> ensure_continuous proto (py_levels p) = Ok ls -> exists K', (K <= K')%nat /\ levels_of s K' ls /\ sized ls.
  Proof. intros (L & Sz & _) E. destruct (ensure_sized K _ ls L Sz E) as (new & _ & L' & Sz' & _). exists (K + length new)%nat. split; [lia|auto]. Qed.
  Lemma set_scale_good K p id q : good K p -> set_scale_id proto p id = Ok q -> exists K', (K <= K')%nat /\ good K' q.
  Proof.
    intros G E. apply set_scale_Ok in E as (E & A & B). destruct (ensure_good K p _ G E) as (K' & HK & L & Sz). exists K'. split; [exact HK|]. split; [exact L|]. split; [exact Sz|].
    destruct L as (_ & Len & _). lia.
  Qed.
  Lemma rescale_good K p t q : good K p -> rescale proto p t = Ok q -> exists K', (K <= K')%nat /\ good K' q.
  Proof.
    intros G E. unfold rescale in E. apply bind_Ok_inv in E as (ls & E1 & E). apply bind_Ok_inv in E as (id & F & E).
    destruct (ensure_good K p ls G E1) as (K1 & H1 & L1 & Sz1). apply (set_scale_good K1) in E.
    - destruct E as (K' & A & B). exists K'. split; [lia|exact B].
    - split; [exact L1|]. split; [exact Sz1|]. cbn [py_active]. destruct G as (_ & _ & G). lia.
  Qed.
  Lemma py_write_good K p c f q : good K p -> py_write grow p c f = Ok q -> good K q /\ py_active q = py_active p.
  Proof.
    intros (L & Sz & A) E. unfold py_write in E. destruct (nth_error (py_levels p) (py_active p)) as [l|] eqn:N; [|discriminate]. injection E as <-. cbn [py_active py_levels].
    destruct (upd_levels K _ _ l (write_cell grow l c (f (lv_cells l c))) N (write_scale _ _ _)) as [L' Sz']; auto.
    { apply write_sized. apply Sz. eapply nth_error_In; eauto. }
    split; [split; [exact L'|split; [exact Sz'|exact A]]|reflexivity].
  Qed.
  Lemma m3_write_good fuel K p c f q : good K p -> m3_write proto grow impact is_unknown fuel p c f = Ok q -> exists K', (K <= K')%nat /\ good K' q.
  Proof.
    intros G E. unfold m3_write in E. apply bind_Ok_inv in E as (p1 & E1 & E). destruct (py_write_good K p c f p1 G E1) as [G1 A1]. apply bind_Ok_inv in E as ([] & T & E).
    destruct (nth_error (py_levels p1) (py_active p1)) as [l|]; [|discriminate]. apply bind_Ok_inv in E as (r & _ & E). apply bind_Ok_inv in E as (ls & ER & E). injection E as <-.
    destruct G1 as (L1 & Sz1 & B1). apply (raise_levels_evolves fuel K) in ER; auto. destruct ER as (K' & HK & L' & Sz'). exists K'. split; [exact HK|]. split; [exact L'|split; [exact Sz'|cbn [py_active]; lia]].
  Qed.
  Lemma scope_good K p body b q : good K p -> body p = Ok b -> (exists K', (K <= K')%nat /\ good K' b) -> with_safe_rescaling proto p body = Ok q -> exists K', (K <= K')%nat /\ good K' q.
  Proof.
    intros G B (K1 & H1 & G1) E. unfold with_safe_rescaling in E. apply bind_Ok_inv in E as (sc & _ & E). rewrite B in E. cbn [bind] in E.
    apply (rescale_good K1) in E; [|exact G1]. destruct E as (K' & A & D). exists K'. split; [lia|exact D].
  Qed.
  Lemma uses_good p q : uses proto grow impact is_unknown p q -> forall K, good K p -> exists K', (K <= K')%nat /\ good K' q.
  Proof.
    induction 1 as [p|p t q r E _ IH|p i q r E _ IH|p c f q r E _ IH|p fuel c f q r E _ IH|p body b q r B _ IHb E _ IH]; intros K G.
    - exists K. auto.
    - destruct (rescale_good K p t q G E) as (K1 & H1 & G1). destruct (IH K1 G1) as (K' & H' & G'). exists K'. split; [lia|exact G'].
    - destruct (set_scale_good K p i q G E) as (K1 & H1 & G1). destruct (IH K1 G1) as (K' & H' & G'). exists K'. split; [lia|exact G'].
    - destruct (py_write_good K p c f q G E) as [G1 _]. destruct (IH K G1) as (K' & H' & G'). exists K'. split; [lia|exact G'].
    - destruct (m3_write_good fuel K p c f q G E) as (K1 & H1 & G1). destruct (IH K1 G1) as (K' & H' & G'). exists K'. split; [lia|exact G'].
    - destruct (scope_good K p body b q G B (IHb K G) E) as (K1 & H1 & G1). destruct (IH K1 G1) as (K' & H' & G'). exists K'. split; [lia|exact G'].
  Qed.

  Lemma pyramid_new_good w h p : 1 <= w -> 1 <= h -> pyramid_new proto (EInf false) w h (EFin s) = Ok p -> exists K, good K p /\ py_active p = O.
  Proof.
    intros Hw Hh E. unfold pyramid_new in E. apply bind_Ok_inv in E as (ls & E1 & E). injection E as <-.
    assert (L0 : levels_of s 1 [new_level proto w h (EFin s); new_level proto 1 1 (EInf false)]).
    { split; [lia|]. split; [reflexivity|]. intros [|[|k]] l; cbn [nth_error]; intros N; [| |destruct k; discriminate]; injection N as <-; cbn.
      - unfold scale_at. cbn. f_equal. lra.
      - reflexivity. }
    assert (S0 : sized [new_level proto w h (EFin s); new_level proto 1 1 (EInf false)]).
    { intros l [<-|[<-|[]]]; cbn; lia. }
    destruct (ensure_sized 1 _ ls L0 S0 E1) as (new & _ & L & Sz & _). exists (1 + length new)%nat. split; [|reflexivity]. split; [exact L|split; [exact Sz|cbn [py_active]; lia]].
  Qed.

  (** scales grow strictly, the last one is infinite *)
  Lemma scale_at_lt K i j : (i < j)%nat -> (j <= K)%nat -> dlt (scale_at s K i) (scale_at s K j) = true.
  Proof.
    intros H HK. rewrite !scale_at_dbl. destruct (Nat.ltb_spec i K); [|lia]. destruct (Nat.ltb_spec j K); [|reflexivity].
    apply E_lt_fin. apply dbl_lt; auto.
  Qed.
  Lemma scale_at_le K i j : (i <= K)%nat -> (j <= K)%nat -> dle (scale_at s K i) (scale_at s K j) = true <-> (i <= j)%nat.
  Proof.
    intros Hi Hj. split.
    - intros H. destruct (Nat.le_gt_cases i j) as [|G]; [assumption|]. exfalso. assert (L := scale_at_lt K j i G Hi).
      rewrite !scale_at_dbl in *. destruct (Nat.ltb_spec i K), (Nat.ltb_spec j K); cbn in H, L; try discriminate; try lia.
      apply R_lt_true in L. apply orb_true_iff in H. rewrite R_lt_true, R_eq_true in H. lra.
    - intros H. apply Nat.le_lteq in H as [H|<-].
      + apply (scale_at_lt K) in H; [|exact Hj]. revert H. generalize (scale_at s K i), (scale_at s K j). intros a b H. cbn in H |- *. now rewrite H.
      + rewrite scale_at_dbl. destruct (i <? K)%nat; [|reflexivity]. apply E_le_fin. lra.
  Qed.
  Lemma scale_at_more K K' i j : (K <= K')%nat -> (i <= K)%nat -> (j <= K')%nat -> dle (scale_at s K i) (scale_at s K' j) = true <-> ((if (i <? K)%nat then i else K') <= j)%nat.
  Proof.
    intros HK Hi Hj. replace (scale_at s K i) with (scale_at s K' (if (i <? K)%nat then i else K')).
    - apply scale_at_le; [destruct (i <? K)%nat eqn:E; [apply Nat.ltb_lt in E|]; lia|exact Hj].
    - rewrite !scale_at_dbl. destruct (Nat.ltb_spec i K).
      + destruct (Nat.ltb_spec i K'); [reflexivity|lia].
      + destruct (Nat.ltb_spec K' K'); [lia|reflexivity].
  Qed.
  Lemma rescale_to_level K K' p i q : good K' p -> (K <= K')%nat -> (i <= K)%nat -> rescale proto p (scale_at s K i) = Ok q ->
    exists K'', (K' <= K'')%nat /\ good K'' q /\ py_active q = (if (i <? K)%nat then i else K'').
  Proof.
    intros G HK Hi E. unfold rescale in E. apply bind_Ok_inv in E as (ls & E1 & E). apply bind_Ok_inv in E as (id & F & E).
    destruct (ensure_sized K' _ ls (proj1 G) (proj1 (proj2 G)) E1) as (new & _ & L1 & Sz1 & Co & _). set (K1 := (K' + length new)%nat) in *.
    unfold set_scale_id in E. cbn [py_levels] in E. rewrite cont_ensure in E by exact Co. cbn [bind] in E. apply bind_Ok_inv in E as ([] & T & E). injection E as <-.
    unfold assert_ in T. destruct (Nat.ltb_spec id (length ls)) as [B|]; [|discriminate]. assert (L1' := L1). destruct L1 as (HK1 & Len & Sh).
    exists K1. split; [unfold K1; lia|]. split; [split; [exact L1'|split; [exact Sz1|cbn [py_active]; lia]]|].
    cbn [py_active]. apply find_level_Ok in F as (l & _ & N & T1 & T2). rewrite Nat.sub_0_r in *. rewrite (Sh _ _ N) in T1. apply scale_at_more in T1; [|unfold K1; lia..].
    apply Nat.le_lteq in T1 as [T1|T1]; [|congruence]. exfalso. set (x := if (i <? K)%nat then i else K1) in *.
    destruct (nth_error ls x) as [lx|] eqn:Nx; [|apply nth_error_None in Nx; lia].
    assert (dle (scale_at s K i) (lv_scale lx) = false) by (apply (T2 x lx T1 Nx)).
    rewrite (Sh _ _ Nx) in H. assert (dle (scale_at s K i) (scale_at s K1 x) = true); [|congruence]. apply scale_at_more; unfold K1 in *; lia || (fold x; lia).
  Qed.
  Lemma rescale_total K p t ls : good K p -> ensure_continuous proto (py_levels p) = Ok ls -> disnan t = false -> exists q, rescale proto p t = Ok q.
  Proof.
    intros G E T. unfold rescale. rewrite E. cbn [bind]. destruct (ensure_sized K _ ls (proj1 G) (proj1 (proj2 G)) E) as (new & _ & (HK & Len & Sh) & _ & Co & _).
    set (K1 := (K + length new)%nat) in *. destruct (nth_error ls K1) as [l|] eqn:N; [|apply nth_error_None in N; lia].
    destruct (find_level_total ls t 0) as [id F].
    { exists l. split; [eapply nth_error_In; eauto|]. rewrite (Sh _ _ N). rewrite scale_at_dbl. destruct (Nat.ltb_spec K1 K1); [lia|]. destruct t as [r|[]|]; cbn in *; auto; discriminate. }
    rewrite F. cbn [bind]. unfold set_scale_id. cbn [py_levels]. rewrite cont_ensure by exact Co. cbn [bind].
    apply find_level_Ok in F as (l' & _ & N' & _). rewrite Nat.sub_0_r in N'. destruct (Nat.ltb_spec id (length ls)) as [B|B]; [|apply nth_error_None in B; congruence].
    cbn. eauto.
  Qed.
  (** leaving a scope *)
  Lemma scope_restores K p body b q : good K p -> body p = Ok b -> uses proto grow impact is_unknown p b -> with_safe_rescaling proto p body = Ok q ->
    exists K', (K <= K')%nat /\ good K' q /\ py_active q = (if (py_active p <? K)%nat then py_active p else K').
  Proof.
    intros G B U E. unfold with_safe_rescaling in E. apply bind_Ok_inv in E as (sc & Es & E). rewrite B in E. cbn [bind] in E.
    destruct (uses_good p b U K G) as (K1 & H1 & G1). destruct G as ((HK & Len & Sh) & Sz & A).
    unfold py_scale in Es. destruct (nth_error (py_levels p) (py_active p)) as [l|] eqn:N; [|discriminate]. injection Es as <-. rewrite (Sh _ _ N) in E.
    destruct (rescale_to_level K K1 b (py_active p) q G1 H1 A E) as (K2 & H2 & G2 & A2). exists K2. split; [lia|]. split; [exact G2|]. exact A2.
  Qed.
End Structure.
