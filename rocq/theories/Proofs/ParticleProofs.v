(** Proofs about the generic particle filter and the GMapping filter. *)
From Coq Require Import Reals ZArith List Lia Lra Bool.
From Verif.Base Require Import Outcome Num OrdLaws.
From Verif.Model Require Import MathUtils Geometry Sensor Histogram World ParticleFilter Gmapping.
From Verif.Proofs Require Import HistProofs.
Import ListNotations.

Section PF.
  Context {D P : Type} {ops : DOps D}.
  Variables (weight : P -> D) (set_weight : D -> P -> P) (sample : P -> P).

  Definition refs (h : list P) (ptrs : list nat) (xs : list P) : Prop := Forall2 (fun p x => nth_error h p = Some x) ptrs xs.

  Lemma objects_refs h ptrs xs : objects h ptrs = Ok xs <-> refs h ptrs xs.
  Proof.
    revert xs. induction ptrs as [|p ptrs IH]; intros xs; cbn [objects].
    - split; [intros E; injection E as <-; constructor|intros H; inversion H; reflexivity].
    - unfold deref. split.
      + intros E. destruct (nth_error h p) as [x|] eqn:N; [|discriminate]. cbn [bind] in E.
        apply bind_Ok_inv in E as (l & E1 & E2). injection E2 as <-. constructor; [exact N|now apply IH].
      + intros H. inversion H as [|? x ? l N F]; subst. rewrite N. cbn [bind]. rewrite (proj2 (IH l) F). reflexivity.
  Qed.
  Lemma refs_length h ptrs xs : refs h ptrs xs -> length ptrs = length xs.
  Proof. induction 1; cbn; auto. Qed.
  Lemma refs_bound h ptrs xs p : refs h ptrs xs -> In p ptrs -> (p < length h)%nat.
  Proof. intros F. induction F as [|q x qs l N F IH]; [easy|]. intros [->|H]; [apply nth_error_Some; congruence|auto]. Qed.
  Lemma refs_upd_other h ptrs xs p f : refs h ptrs xs -> ~ In p ptrs -> (p < length h)%nat -> refs (upd h p f) ptrs xs.
  Proof.
    intros F Hn Hp. induction F as [|q x qs l N F IH]; constructor.
    - rewrite upd_nth by exact Hp. destruct (Nat.eqb_spec q p) as [->|_]; [elim Hn; now left|exact N].
    - apply IH. intros H. apply Hn. now right.
  Qed.
  Lemma refs_app h t ptrs xs : refs h ptrs xs -> refs (h ++ t) ptrs xs.
  Proof.
    intros F. induction F as [|q x qs l N F IH]; constructor; auto.
    rewrite nth_error_app1; [exact N|]. apply nth_error_Some. congruence.
  Qed.
  Lemma refs_nth h ptrs xs i : refs h ptrs xs ->
    match nth_error ptrs i, nth_error xs i with
    | Some p, Some x => nth_error h p = Some x | None, None => True | _, _ => False end.
  Proof. intros F. revert i. induction F as [|p x ps l N F IH]; intros [|i]; cbn [nth_error]; auto. apply IH. Qed.

  Lemma scale_weights_spec h ptrs xs tot : refs h ptrs xs -> NoDup ptrs ->
    exists h', scale_weights weight set_weight h ptrs tot = Ok h' /\ length h' = length h /\
      refs h' ptrs (map (fun x => set_weight (ddiv (weight x) tot) x) xs) /\
      (forall q, ~ In q ptrs -> nth_error h' q = nth_error h q).
  Proof.
    intros F. revert h F. revert xs. induction ptrs as [|p ptrs IH]; intros xs h F ND; cbn [scale_weights].
    - inversion F; subst. exists h. split; [reflexivity|]. split; [reflexivity|]. split; [constructor|auto].
    - inversion F as [|? x ? l N F']; subst. unfold deref. rewrite N. cbn [bind]. inversion ND as [|? ? Hn ND']; subst.
      assert (B : (p < length h)%nat) by (apply nth_error_Some; congruence).
      set (g := fun x0 : P => set_weight (ddiv (weight x0) tot) x0) in *.
      destruct (IH l (upd h p g)) as (h' & E & L & R & O); [now apply refs_upd_other|exact ND'|].
      exists h'. split; [exact E|]. split; [now rewrite L, upd_length|]. split.
      + constructor; [|exact R]. rewrite O by exact Hn. rewrite upd_nth by exact B. now rewrite Nat.eqb_refl, N.
      + intros q Hq. rewrite O by (intros H; apply Hq; now right). rewrite upd_nth by exact B.
        destruct (Nat.eqb_spec q p) as [->|]; [elim Hq; now left|reflexivity].
  Qed.

  Lemma normalize_spec f xs : refs (pf_heap f) (pf_ptrs f) xs -> NoDup (pf_ptrs f) ->
    exists f', normalize_weights weight set_weight f = Ok f' /\ pf_ptrs f' = pf_ptrs f /\ length (pf_heap f') = length (pf_heap f) /\
      refs (pf_heap f') (pf_ptrs f') (map (fun x => set_weight (ddiv (weight x) (total_weight (map weight xs) (dofZ 0))) x) xs).
  Proof.
    intros F ND. unfold normalize_weights. rewrite (proj2 (objects_refs _ _ _) F). cbn [bind].
    destruct (scale_weights_spec _ _ _ (total_weight (map weight xs) (dofZ 0)) F ND) as (h & E & L & R & _).
    rewrite E. cbn [bind]. eexists. split; [reflexivity|]. auto.
  Qed.

  Lemma draw_bound ws : forall j tot s, (draw ws j tot s < j + length ws)%nat \/ draw ws j tot s = O.
  Proof.
    induction ws as [|w ws IH]; intros j tot s; cbn [draw length]; [now right|].
    destruct (dlt s (dadd tot w)); [left; lia|]. destruct (IH (S j) (dadd tot w) s); [left; lia|now right].
  Qed.
  Lemma draw_lt ws s : ws <> [] -> (draw ws 0 (dofZ 0) s < length ws)%nat.
  Proof. intros H. destruct (draw_bound ws 0 (dofZ 0) s) as [B|B]; [exact B|rewrite B; destruct ws; [easy|cbn; lia]]. Qed.

  (** which objects resampling leaves: the first use of an index keeps the particle, later uses are sampled duplicates *)
  Fixpoint taken (xs : list P) (inds seen : list nat) : list P :=
    match inds with
    | [] => []
    | i :: inds =>
        match nth_error xs i with
        | None => []
        | Some x => if existsb (Nat.eqb i) seen then sample x :: taken xs inds seen else x :: taken xs inds (i :: seen)
        end
    end.
  Lemma existsb_eqb i l : existsb (Nat.eqb i) l = true <-> In i l.
  Proof.
    rewrite existsb_exists. split; [intros (x & H & E); apply Nat.eqb_eq in E; now subst|intros H; exists i; split; [exact H|apply Nat.eqb_refl]].
  Qed.
  Lemma existsb_eqb_false i l : existsb (Nat.eqb i) l = false <-> ~ In i l.
  Proof. rewrite <- existsb_eqb. destruct (existsb _ _); split; congruence. Qed.

  Lemma take_spec old xs : NoDup old -> forall inds h seen, refs h old xs -> Forall (fun i => (i < length old)%nat) inds ->
    exists h' ptrs, take_particles sample h old inds seen = Ok (h', ptrs) /\ (exists t, h' = h ++ t) /\ NoDup ptrs /\
      (forall p, In p ptrs -> (exists i, In i inds /\ ~ In i seen /\ nth_error old i = Some p) \/ (length h <= p)%nat) /\
      refs h' ptrs (taken xs inds seen).
  Proof.
    intros ND. induction inds as [|i inds IH]; intros h seen F B; cbn [take_particles taken].
    - exists h, []. split; [reflexivity|]. split; [exists []; now rewrite app_nil_r|]. split; [constructor|]. split; [easy|constructor].
    - inversion B as [|? ? Bi B']; subst. assert (N := refs_nth _ _ _ i F).
      destruct (nth_error old i) as [p|] eqn:Ep; [|apply nth_error_None in Ep; lia].
      destruct (nth_error xs i) as [x|] eqn:Ex; [|easy].
      destruct (existsb (Nat.eqb i) seen) eqn:Es.
      + unfold deref. rewrite N. cbn [bind].
        destruct (IH (h ++ [sample x]) seen (refs_app _ _ _ _ F) B') as (h' & ptrs & E & (t & Ht) & NDp & HP & R).
        rewrite E. cbn [bind]. exists h', (length h :: ptrs). split; [reflexivity|]. split; [exists (sample x :: t); subst h'; now rewrite <- app_assoc|].
        split; [|split].
        * constructor; [|exact NDp]. intros H. apply HP in H as [(k & Hk & _ & Ek)|H].
          -- apply (refs_bound _ _ _ (length h) F) in Ek || apply nth_error_In in Ek. apply (refs_bound _ _ _ _ F) in Ek. lia.
          -- rewrite app_length in H. cbn in H. lia.
        * intros q [<-|H]; [now right|]. apply HP in H as [(k & Hk & Hs & Ek)|H]; [left; exists k; split; [now right|auto]|].
          right. rewrite app_length in H. lia.
        * constructor; [|exact R]. subst h'. rewrite <- app_assoc, nth_error_app2, Nat.sub_diag by lia. reflexivity.
      + destruct (IH h (i :: seen) F B') as (h' & ptrs & E & Ht & NDp & HP & R).
        rewrite E. cbn [bind]. exists h', (p :: ptrs). split; [reflexivity|]. split; [exact Ht|]. split; [|split].
        * constructor; [|exact NDp]. intros H. apply HP in H as [(k & Hk & Hs & Ek)|H].
          -- apply Hs. left. apply (proj1 (NoDup_nth_error old) ND); [exact Bi|congruence].
          -- apply nth_error_In in Ep. apply (refs_bound _ _ _ _ F) in Ep. lia.
        * intros q [<-|H]; [left; exists i; split; [now left|]; split; [now apply existsb_eqb_false|exact Ep]|].
          apply HP in H as [(k & Hk & Hs & Ek)|H]; [left; exists k; split; [now right|]; split; [intros HH; apply Hs; now right|exact Ek]|now right].
        * constructor; [|exact R]. destruct Ht as [t ->]. rewrite nth_error_app1 by (apply nth_error_Some; congruence). exact N.
  Qed.
  Lemma taken_nth xs : forall inds seen k i x, Forall (fun i => (i < length xs)%nat) inds -> nth_error inds k = Some i -> nth_error xs i = Some x ->
    nth_error (taken xs inds seen) k = Some (if existsb (Nat.eqb i) (seen ++ firstn k inds) then sample x else x).
  Proof.
    induction inds as [|j inds IH]; intros seen [|k] i x B E N; try discriminate; cbn [nth_error] in E; cbn [taken firstn]; inversion B; subst.
    - injection E as ->. rewrite N, app_nil_r. destruct (existsb _ _); reflexivity.
    - destruct (nth_error xs j) as [y|] eqn:Ey; [|apply nth_error_None in Ey; lia].
      destruct (existsb (Nat.eqb j) seen) eqn:Es; cbn [nth_error].
      + rewrite (IH seen k i x) by auto. f_equal. rewrite !existsb_app. cbn [existsb].
        destruct (Nat.eqb_spec i j) as [->|]; [rewrite Es; now rewrite !orb_true_l|reflexivity].
      + rewrite (IH (j :: seen) k i x) by auto. f_equal. cbn [app]. rewrite !existsb_app. cbn [existsb]. rewrite !existsb_app.
        now rewrite !orb_assoc, (orb_comm (existsb _ seen)).
  Qed.
  Lemma taken_length xs : forall inds seen, Forall (fun i => (i < length xs)%nat) inds -> length (taken xs inds seen) = length inds.
  Proof.
    induction inds as [|j inds IH]; intros seen B; cbn [taken length]; [reflexivity|]. inversion B; subst.
    destruct (nth_error xs j) as [y|] eqn:Ey; [|apply nth_error_None in Ey; lia].
    destruct (existsb _ _); cbn [length]; now rewrite IH.
  Qed.
  Lemma taken_all (Q : P -> Prop) xs : (forall x, Q x -> Q (sample x)) -> Forall Q xs -> forall inds seen, Forall Q (taken xs inds seen).
  Proof.
    intros HS HX. induction inds as [|i inds IH]; intros seen; cbn [taken]; [constructor|].
    destruct (nth_error xs i) as [x|] eqn:E; [|constructor]. rewrite Forall_forall in HX. apply nth_error_In in E.
    destruct (existsb _ _); constructor; auto.
  Qed.

  Lemma resample_bound ws samples : ws <> [] -> Forall (fun i => (i < length ws)%nat) (resample ws samples).
  Proof.
    intros H. unfold resample. apply Forall_forall. intros i Hi. apply in_map_iff in Hi as (k & <- & _). now apply draw_lt.
  Qed.
  Lemma resample_length (ws : list D) samples : length (resample ws samples) = length ws.
  Proof. unfold resample. now rewrite map_length, seq_length. Qed.

  Definition rescaled (tot : D) (x : P) : P := set_weight (ddiv (weight x) tot) x.

  Lemma try_resample_spec f xs samples : refs (pf_heap f) (pf_ptrs f) xs -> NoDup (pf_ptrs f) -> xs <> [] ->
    if resampling_is_required (map weight xs) then
      exists f', pf_try_resample weight set_weight sample f samples = Ok (f', true) /\ NoDup (pf_ptrs f') /\
        let ys := taken xs (resample (map weight xs) samples) [] in
        refs (pf_heap f') (pf_ptrs f') (map (rescaled (total_weight (map weight ys) (dofZ 0))) ys)
    else pf_try_resample weight set_weight sample f samples = Ok (f, false).
  Proof.
    intros F ND NE. unfold pf_try_resample. rewrite (proj2 (objects_refs _ _ _) F). cbn [bind].
    destruct (resampling_is_required (map weight xs)); cbn [negb]; [|reflexivity].
    assert (NE' : map weight xs <> []) by (destruct xs; [easy|discriminate]).
    assert (B := resample_bound _ samples NE'). rewrite map_length in B.
    destruct (take_spec _ _ ND (resample (map weight xs) samples) (pf_heap f) [] F) as (h & ptrs & E & _ & NDp & _ & R);
      [now rewrite (refs_length _ _ _ F)|].
    rewrite E. cbn [bind].
    destruct (normalize_spec (mkPF h ptrs) _ R NDp) as (f' & E' & P' & _ & R'). rewrite E'. cbn [bind].
    exists f'. split; [reflexivity|]. rewrite P'. cbn [pf_ptrs]. split; [exact NDp|]. cbv zeta. rewrite P' in R'. exact R'.
  Qed.

  (** the heaviest particle *)
  Lemma heaviest_some ws : forall i b bw, exists r, heaviest ws i (Some (b, bw)) = Some r /\ (r = b \/ (i <= r < i + length ws)%nat).
  Proof.
    induction ws as [|w ws IH]; intros i b bw; cbn [heaviest length]; [eauto|].
    destruct (dlt w bw).
    - destruct (IH (S i) b bw) as (r & E & [->|H]); eexists; (split; [exact E|]); [now left|right; lia].
    - destruct (IH (S i) i w) as (r & E & [->|H]); eexists; (split; [exact E|]); right; lia.
  Qed.
  Lemma heaviest_ok ws : ws <> [] -> exists r, heaviest ws 0 None = Some r /\ (r < length ws)%nat.
  Proof.
    destruct ws as [|w ws]; [easy|]. intros _. cbn [heaviest length]. destruct (heaviest_some ws 1 0 w) as (r & E & H).
    exists r. split; [exact E|]. destruct H; lia.
  Qed.
  Lemma heaviest_ptr_ok f xs : refs (pf_heap f) (pf_ptrs f) xs -> xs <> [] ->
    exists i p x, heaviest_ptr weight f = Ok p /\ heaviest (map weight xs) 0 None = Some i /\ nth_error (pf_ptrs f) i = Some p /\
      nth_error xs i = Some x /\ nth_error (pf_heap f) p = Some x.
  Proof.
    intros F NE. unfold heaviest_ptr. rewrite (proj2 (objects_refs _ _ _) F). cbn [bind].
    destruct (heaviest_ok (map weight xs)) as (i & E & L); [destruct xs; [easy|discriminate]|]. rewrite E.
    rewrite map_length in L. assert (N := refs_nth _ _ _ i F).
    destruct (nth_error xs i) as [x|] eqn:Ex; [|apply nth_error_None in Ex; lia].
    destruct (nth_error (pf_ptrs f) i) as [p|] eqn:Ep; [|easy]. exists i, p, x. auto.
  Qed.
  Lemma refs_upd_at h ptrs xs i p f : refs h ptrs xs -> NoDup ptrs -> nth_error ptrs i = Some p -> refs (upd h p f) ptrs (upd xs i f).
  Proof.
    intros F. revert i. induction F as [|q x qs l N F IH]; intros i ND E; [destruct i; discriminate|].
    inversion ND as [|? ? Hn ND']; subst. assert (B : (q < length h)%nat) by (apply nth_error_Some; congruence).
    destruct i as [|i]; cbn in E.
    - injection E as ->. change (upd (x :: l) 0 f) with (f x :: l). constructor; [|now apply refs_upd_other].
      rewrite upd_nth, Nat.eqb_refl, N by exact B. reflexivity.
    - assert (EU : upd (x :: l) (S i) f = x :: upd l i f).
      { unfold upd. cbn [nth_error firstn skipn app]. destruct (nth_error l i); reflexivity. }
      rewrite EU. assert (Hp : In p qs) by (eapply nth_error_In; eauto). constructor; [|now apply IH].
      rewrite upd_nth by (eapply refs_bound; eauto). destruct (Nat.eqb_spec q p) as [->|]; [now elim Hn|exact N].
  Qed.
End PF.

(** ** GMapping *)
Section GM.
  Context {D S M SM G RV : Type} {ops : DOps D}.
  Variables (dcos dsin : D -> D).
  Variables (rv_sample : RV -> G -> pose D * RV * G) (rv_copy : RV -> RV) (rv_zero : RV).
  Variables (sm_process : SM -> S -> pose D -> M -> outcome (D * pose D * SM)).
  Variable adder : M -> pose D -> S -> D -> D -> outcome M.
  Local Notation gp := (gparticle D G RV).
  Local Notation observe := (gp_observe rv_sample sm_process adder).

  Lemma gf_each_spec (f : gp -> gp) ptrs : forall h xs, refs h ptrs xs -> NoDup ptrs ->
    exists h', gf_each h ptrs f = Ok h' /\ refs h' ptrs (map f xs) /\ (forall q, ~ In q ptrs -> nth_error h' q = nth_error h q).
  Proof.
    induction ptrs as [|p ptrs IH]; intros h xs F ND; cbn [gf_each].
    - inversion F; subst. exists h. split; [reflexivity|]. split; [constructor|auto].
    - inversion F as [|? x ? l N F']; subst. unfold deref. rewrite N. cbn [bind]. inversion ND as [|? ? Hn ND']; subst.
      assert (B : (p < length h)%nat) by (apply nth_error_Some; congruence).
      destruct (IH (upd h p f) l) as (h' & E & R & O); [now apply refs_upd_other|exact ND'|].
      exists h'. split; [exact E|]. split.
      + constructor; [|exact R]. rewrite O by exact Hn. rewrite upd_nth, Nat.eqb_refl, N by exact B. reflexivity.
      + intros q Hq. rewrite O by (intros H; apply Hq; now right). rewrite upd_nth by exact B.
        destruct (Nat.eqb_spec q p) as [->|]; [elim Hq; now left|reflexivity].
  Qed.

  Definition keeps (p q : gp) : Prop := gp_master q = gp_master p /\ gp_map q = gp_map p.
  Lemma gp_observe_keeps maps sm p s maps' sm' p' : observe maps sm p s = Ok (maps', sm', p') ->
    keeps p p' /\ length maps' = length maps.
  Proof.
    unfold gp_observe. destruct (gp_skips p); [intros E; injection E as <- <- <-; repeat split|].
    destruct (gp_first p) eqn:F1.
    - destruct (nth_error maps (gp_map p)) as [m|]; [|discriminate]. intros E. apply bind_Ok_inv in E as ([[prob d] sm1] & E1 & E).
      cbv zeta in E. apply bind_Ok_inv in E as ([maps1 p1] & E2 & E).
      unfold gp_reset_sm_delta, gp_set_weight in E. cbn in E. destruct (rv_sample _ _) as [[nx lm] g] in E. injection E as <- <- <-.
      destruct (_ || _)%bool in E2.
      + apply bind_Ok_inv in E2 as (m1 & _ & E2). injection E2 as <- <-. cbn. now rewrite upd_length.
      + injection E2 as <- <-. now cbn.
    - destruct (rv_sample (gp_guess p) (gp_engine p)) as [[noise guess] g0]. cbn [gp_move gp_map].
      destruct (nth_error maps (gp_map p)) as [m|]; [|discriminate]. intros E. apply bind_Ok_inv in E as ([[prob d] sm1] & E1 & E).
      cbv zeta in E. apply bind_Ok_inv in E as ([maps1 p1] & E2 & E).
      unfold gp_reset_sm_delta, gp_set_weight in E. cbn in E. destruct (rv_sample _ _) as [[nx lm] g] in E. injection E as <- <- <-.
      destruct (_ || _)%bool in E2.
      + apply bind_Ok_inv in E2 as (m1 & _ & E2). injection E2 as <- <-. cbn. now rewrite upd_length.
      + injection E2 as <- <-. now cbn.
  Qed.

  Lemma gf_observe_each_spec s ptrs : forall maps sm h xs maps' sm' h', refs h ptrs xs -> NoDup ptrs ->
    gf_observe_each rv_sample sm_process adder maps sm h ptrs s = Ok (maps', sm', h') ->
    length maps' = length maps /\ (exists ys, refs h' ptrs ys /\ Forall2 keeps xs ys) /\ (forall q, ~ In q ptrs -> nth_error h' q = nth_error h q).
  Proof.
    induction ptrs as [|p ptrs IH]; intros maps sm h xs maps' sm' h' F ND E; cbn [gf_observe_each] in E.
    - injection E as <- <- <-. inversion F; subst. split; [reflexivity|]. split; [exists []; split; constructor|auto].
    - inversion F as [|? x ? l N F']; subst. unfold deref in E. rewrite N in E. cbn [bind] in E. inversion ND as [|? ? Hn ND']; subst.
      apply bind_Ok_inv in E as ([[maps1 sm1] x1] & E1 & E). apply gp_observe_keeps in E1 as [K L].
      assert (B : (p < length h)%nat) by (apply nth_error_Some; congruence).
      destruct (IH maps1 sm1 (upd h p (fun _ => x1)) l maps' sm' h') as (L' & (ys & R & K') & O); [now apply refs_upd_other|exact ND'|exact E|].
      split; [congruence|]. split.
      + exists (x1 :: ys). split; [|now constructor]. constructor; [|exact R]. rewrite O by exact Hn.
        rewrite upd_nth, Nat.eqb_refl, N by exact B. reflexivity.
      + intros q Hq. rewrite O by (intros H; apply Hq; now right). rewrite upd_nth by exact B.
        destruct (Nat.eqb_spec q p) as [->|]; [elim Hq; now left|reflexivity].
  Qed.

  Definition masters (xs : list gp) : nat := length (filter gp_master xs).
  (** what every reachable filter satisfies *)
  Definition gf_inv (mp : nat) (f : gfilter D M SM G RV) : Prop :=
    exists xs, refs (pf_heap (gf_pf f)) (pf_ptrs (gf_pf f)) xs /\ NoDup (pf_ptrs (gf_pf f)) /\ xs <> [] /\
      masters xs = 1%nat /\ Forall (fun x => gp_map x = mp) xs /\ (mp < length (gf_maps f))%nat.

  Lemma masters_keeps xs ys : Forall2 keeps xs ys -> masters ys = masters xs /\ (forall mp, Forall (fun x => gp_map x = mp) xs -> Forall (fun x => gp_map x = mp) ys) /\ length ys = length xs.
  Proof.
    intros F. split; [|split].
    - induction F as [|x y xs ys [K _] F IH]; [reflexivity|]. unfold masters in *. cbn [filter]. rewrite K. destruct (gp_master x); cbn [length]; congruence.
    - intros mp. induction F as [|x y xs ys [_ K] F IH]; intros H; inversion H; constructor; [congruence|auto].
    - induction F; cbn; auto.
  Qed.
  Lemma masters_map f xs : (forall x, gp_master (f x) = gp_master x) -> masters (map f xs) = masters xs.
  Proof. intros H. unfold masters. induction xs as [|x xs IH]; cbn; [reflexivity|]. rewrite H. destruct (gp_master x); cbn; auto. Qed.
  Lemma masters_taken (dup : gp -> gp) xs : (forall x, gp_master (dup x) = false) -> masters xs = 1%nat -> forall inds seen,
    Forall (fun i => (i < length xs)%nat) inds ->
    (masters (taken dup xs inds seen) <= 1)%nat.
  Proof.
    intros HD H1.
    assert (HJ : exists j x, nth_error xs j = Some x /\ gp_master x = true /\ forall i y, nth_error xs i = Some y -> gp_master y = true -> i = j).
    { clear - H1. unfold masters in H1. induction xs as [|x xs IH]; [discriminate|]. cbn [filter] in H1. destruct (gp_master x) eqn:E.
      - exists O, x. split; [reflexivity|]. split; [exact E|]. intros [|i] y Hy My; [reflexivity|]. cbn in Hy. apply nth_error_In in Hy.
        cbn in H1. injection H1 as H1. apply length_zero_iff_nil in H1. assert (I : In y (filter gp_master xs)) by (apply filter_In; auto).
        rewrite H1 in I. destruct I.
      - destruct (IH H1) as (j & y & A & B & C). exists (Datatypes.S j), y. split; [exact A|]. split; [exact B|].
        intros [|i] z Hz Mz; cbn in Hz; [congruence|]. f_equal. eauto. }
    destruct HJ as (j & x & Hj & Mx & U).
    assert (Z : forall inds seen, In j seen -> masters (taken dup xs inds seen) = O).
    { induction inds as [|i inds IH]; intros seen Hs; cbn [taken]; [reflexivity|]. destruct (nth_error xs i) as [y|] eqn:Ey; [|reflexivity].
      destruct (existsb (Nat.eqb i) seen) eqn:E; unfold masters in *; cbn [filter].
      - rewrite HD. now apply IH.
      - destruct (gp_master y) eqn:My; [|apply IH; now right]. rewrite (U i y Ey My) in E. apply existsb_eqb_false in E. easy. }
    induction inds as [|i inds IH]; intros seen B; cbn [taken]; [cbn; lia|]. inversion B; subst.
    destruct (nth_error xs i) as [y|] eqn:Ey; [|cbn; lia].
    destruct (existsb (Nat.eqb i) seen) eqn:E; unfold masters in *; cbn [filter].
    - rewrite HD. now apply IH.
    - destruct (gp_master y) eqn:My; [|now apply IH]. cbn [length]. rewrite (Z inds (i :: seen)); [lia|]. left. now apply (U i y).
  Qed.
  Lemma masters_mark xs i (f : gp -> gp) : (forall x, gp_master (f x) = true) -> (i < length xs)%nat -> masters xs = O -> masters (upd xs i f) = 1%nat.
  Proof.
    intros HF Hi H0. unfold masters in *. apply length_zero_iff_nil in H0. unfold upd.
    destruct (nth_error xs i) as [x|] eqn:E; [|apply nth_error_None in E; lia].
    assert (HS : xs = firstn i xs ++ x :: skipn (Datatypes.S i) xs).
    { clear - E. revert i E. induction xs as [|y xs IH]; intros [|i] E; try discriminate; cbn in *; [congruence|]. f_equal. now apply IH. }
    rewrite HS in H0. rewrite filter_app in H0. cbn [filter] in H0. apply app_eq_nil in H0 as [A B].
    rewrite filter_app. cbn [filter]. rewrite A, HF. cbn [app length]. destruct (gp_master x); [discriminate|]. now rewrite B.
  Qed.
  Lemma upd_Forall {A} (Q : A -> Prop) xs i f : Forall Q xs -> (forall x, Q x -> Q (f x)) -> Forall Q (upd xs i f).
  Proof.
    intros H HF. unfold upd. destruct (nth_error xs i) as [x|] eqn:E; [|exact H].
    rewrite Forall_forall in *. intros y Hy. apply in_app_iff in Hy as [Hy|[<-|Hy]].
    - apply H. rewrite <- (firstn_skipn i xs). apply in_or_app. now left.
    - apply HF, H. eapply nth_error_In; eauto.
    - apply H. rewrite <- (firstn_skipn (Datatypes.S i) xs). apply in_or_app. now right.
  Qed.

  Lemma gf_update_inv mp f d : gf_inv mp f -> exists f', gf_update dcos dsin f d = Ok f' /\ gf_inv mp f'.
  Proof.
    intros (xs & R & ND & NE & H1 & HM & HL). unfold gf_update.
    destruct (gf_each_spec (gp_update_robot_pose dcos dsin d) _ _ _ R ND) as (h & E & R' & _). rewrite E. cbn [bind].
    eexists. split; [reflexivity|]. exists (map (gp_update_robot_pose dcos dsin d) xs). cbn [gf_pf pf_heap pf_ptrs gf_maps].
    split; [exact R'|]. split; [exact ND|]. split; [destruct xs; [easy|discriminate]|]. split; [now rewrite masters_map|].
    split; [|exact HL]. apply Forall_map. eapply Forall_impl; [|exact HM]. now intros.
  Qed.

  Lemma ensure_master_spec f xs mp : refs (pf_heap f) (pf_ptrs f) xs -> NoDup (pf_ptrs f) -> xs <> [] -> (masters xs <= 1)%nat ->
    Forall (fun x => gp_map x = mp) xs ->
    exists f' ys, gf_ensure_master rv_zero f = Ok f' /\ pf_ptrs f' = pf_ptrs f /\ refs (pf_heap f') (pf_ptrs f') ys /\ ys <> [] /\ masters ys = 1%nat /\ Forall (fun x => gp_map x = mp) ys.
  Proof.
    intros R ND NE H1 HM. unfold gf_ensure_master. rewrite (proj2 (objects_refs _ _ _) R). cbn [bind].
    destruct (existsb gp_master xs) eqn:E.
    - exists f, xs. split; [reflexivity|]. split; [reflexivity|]. split; [exact R|]. split; [exact NE|]. split; [|exact HM].
      apply existsb_exists in E as (x & I & Mx). unfold masters in *. assert (I' : In x (filter gp_master xs)) by (apply filter_In; auto).
      destruct (filter gp_master xs); [easy|]. cbn in *. lia.
    - destruct (heaviest_ptr_ok gp_weight f xs R NE) as (i & p & x & Ep & _ & Np & Nx & _). rewrite Ep. cbn [bind].
      exists (mkPF (upd (pf_heap f) p (gp_mark_master rv_zero)) (pf_ptrs f)), (upd xs i (gp_mark_master rv_zero)).
      split; [reflexivity|]. split; [reflexivity|]. split; [now apply refs_upd_at|].
      split; [intros H; apply (f_equal (@length gp)) in H; rewrite upd_length in H; destruct xs; [easy|discriminate]|].
      split; [|apply upd_Forall; [exact HM|now intros]].
      apply masters_mark; [reflexivity|apply nth_error_Some; congruence|].
      unfold masters. destruct (filter gp_master xs) as [|y l] eqn:F; [reflexivity|].
      assert (I : In y (filter gp_master xs)) by (rewrite F; now left). apply filter_In in I as [I My].
      assert (existsb gp_master xs = true) by (apply existsb_exists; eauto). congruence.
  Qed.

  Lemma gf_observe_inv mp f s samples f' : gf_inv mp f -> gf_observe rv_sample rv_copy rv_zero sm_process adder f s samples = Ok f' -> gf_inv mp f'.
  Proof.
    intros (xs & R & ND & NE & H1 & HM & HL) E. unfold gf_observe in E.
    apply bind_Ok_inv in E as ([[maps sm] h] & E1 & E).
    apply gf_observe_each_spec with (xs := xs) in E1 as (L1 & (ys & R1 & K) & _); [|exact R|exact ND].
    apply masters_keeps in K as (K1 & K2 & K3).
    apply bind_Ok_inv in E as (p & E2 & E).
    destruct (normalize_spec gp_weight gp_set_weight (mkPF h (pf_ptrs (gf_pf f))) ys R1 ND) as (p' & E2' & P2 & _ & R2).
    rewrite E2 in E2'. injection E2' as <-. cbn [pf_ptrs] in P2.
    set (zs := map _ ys) in R2.
    assert (Z1 : masters zs = 1%nat) by (unfold zs; rewrite masters_map; [congruence|reflexivity]).
    assert (Z2 : Forall (fun x => gp_map x = mp) zs) by (unfold zs; apply Forall_map; eapply Forall_impl; [|exact (K2 mp HM)]; now intros).
    assert (Z3 : zs <> []) by (unfold zs; destruct ys; [destruct xs; [easy|discriminate]|discriminate]).
    assert (ND2 : NoDup (pf_ptrs p)) by (rewrite P2; exact ND).
    unfold gf_try_resample in E. cbn [gf_trav gf_pf gf_maps gf_sm] in E.
    destruct (_ && _)%bool in E.
    - injection E as <-. exists zs. cbn [gf_pf gf_maps]. rewrite L1. auto 7.
    - apply bind_Ok_inv in E as ([p1 b] & E3 & E).
      assert (T := try_resample_spec gp_weight gp_set_weight (gp_duplicate rv_copy) p zs samples R2 ND2 Z3).
      destruct (resampling_is_required (map gp_weight zs)).
      + destruct T as (p2 & E3' & ND3 & R3). rewrite E3 in E3'. injection E3' as -> ->. cbn [negb] in E.
        cbv zeta in R3. set (ts := taken _ _ _ _) in R3.
        assert (NEw : map gp_weight zs <> []) by (destruct zs; [easy|discriminate]).
        assert (B := resample_bound (map gp_weight zs) samples NEw). rewrite map_length in B.
        assert (T1 : (masters ts <= 1)%nat) by (apply masters_taken; [reflexivity|exact Z1|exact B]).
        assert (T2 : Forall (fun x => gp_map x = mp) ts) by (apply taken_all; [now intros|exact Z2]).
        assert (T3 : ts <> []).
        { intros H. apply (f_equal (@length gp)) in H. unfold ts in H. rewrite taken_length, resample_length, map_length in H by exact B. now destruct zs. }
        apply bind_Ok_inv in E as (p3 & E4 & E). injection E as <-.
        destruct (ensure_master_spec p2 _ mp R3 ND3) as (p4 & us & E4' & P4 & R4 & N4 & M4 & A4).
        * destruct ts; [easy|discriminate].
        * rewrite masters_map by reflexivity. exact T1.
        * apply Forall_map. eapply Forall_impl; [|exact T2]. now intros.
        * rewrite E4 in E4'. injection E4' as <-. exists us. cbn [gf_pf gf_maps]. rewrite P4 in *. rewrite L1. auto 7.
      + rewrite E3 in T. injection T as -> ->. cbn [negb] in E. injection E as <-. exists zs. cbn [gf_pf gf_maps]. rewrite L1. auto 7.
  Qed.

  Lemma pf_create_nth (set_w : D -> gp -> gp) (create : nat -> gp) w n : forall i k,
    (k < n)%nat -> nth_error (pf_create set_w create n i w) k = Some (set_w w (create (i + k)%nat)).
  Proof.
    induction n as [|n IH]; intros i k H; [lia|]. destruct k as [|k]; cbn [pf_create nth_error]; [now rewrite Nat.add_0_r|].
    rewrite IH by lia. do 3 f_equal. lia.
  Qed.
  Lemma gf_new_inv guess lim seeds m sm n : (0 < n)%nat ->
    exists f, gf_new rv_sample rv_copy rv_zero guess lim seeds m sm n = Ok f /\ gf_inv 0 f /\ length (pf_ptrs (gf_pf f)) = n.
  Proof.
    intros Hn. unfold gf_new. set (cr := fun i => gp_create rv_sample rv_copy guess lim 0 (seeds i)). cbv zeta.
    unfold pf_new. cbn [pf_heap pf_ptrs]. set (w := ddiv _ _).
    set (xs := map (fun i => gp_set_weight w (cr i)) (seq 0 n)).
    assert (R : refs (pf_create gp_set_weight cr n 0 w) (seq 0 n) xs).
    { unfold refs, xs. clear - cr. assert (GG : forall l, Forall (fun i => (i < n)%nat) l -> Forall2 (fun p x => nth_error (pf_create gp_set_weight cr n 0 w) p = Some x) l (map (fun i => gp_set_weight w (cr i)) l)).
      { intros l H. induction H as [|i l Hi H IH]; cbn [map]; constructor; [|exact IH]. rewrite pf_create_nth by exact Hi. reflexivity. }
      apply GG. apply Forall_forall. intros i Hi. apply in_seq in Hi. lia. }
    assert (ND := seq_NoDup n 0).
    destruct (gf_each_spec (gp_sample (G := G)) _ _ _ R ND) as (h & E & R' & _). rewrite E. cbn [bind].
    set (ys := map gp_sample xs) in R'.
    assert (LY : length ys = n) by (unfold ys, xs; now rewrite !map_length, seq_length).
    assert (NE : ys <> []) by (intros H; rewrite H in LY; cbn in LY; lia).
    destruct (heaviest_ptr_ok gp_weight (mkPF h (seq 0 n)) ys R' NE) as (i & p & x & Ep & _ & Np & Nx & _). rewrite Ep. cbn [bind].
    eexists. split; [reflexivity|]. cbn [gf_pf pf_ptrs]. split; [|now rewrite seq_length].
    exists (upd ys i (gp_mark_master rv_zero)). cbn [gf_pf gf_maps pf_heap pf_ptrs].
    split; [now apply refs_upd_at|]. split; [exact ND|].
    split; [intros H; apply (f_equal (@length gp)) in H; rewrite upd_length, LY in H; cbn in H; lia|].
    split; [|split; [|cbn; lia]].
    - apply masters_mark; [reflexivity|apply nth_error_Some; congruence|]. unfold ys, masters. clear. induction xs; cbn; auto.
    - apply upd_Forall; [|now intros]. unfold ys, xs. rewrite map_map. apply Forall_map. apply Forall_forall. intros j _.
      unfold cr, gp_create, gp_reset_sm_delta. destruct (rv_sample _ _) as [[? ?] ?]. reflexivity.
  Qed.

  Local Notation run := (gf_run dcos dsin rv_sample rv_copy rv_zero sm_process adder).
  Lemma gf_run_inv mp hist : forall o f o' f' ns, gf_inv mp f -> run o f hist = Ok (o', f', ns) -> gf_inv mp f'.
  Proof.
    unfold gf_run. induction hist as [|[id|id|id|s] hist IH]; intros o f o' f' ns I E; cbn [world_run] in E.
    - now injection E as <- <- <-.
    - eauto.
    - eauto.
    - eauto.
    - apply bind_Ok_inv in E as ([w n] & E1 & E). apply bind_Ok_inv in E as ([[o1 w1] n1] & E2 & E). injection E as <- <- <-.
      apply (IH _ _ _ _ _) in E2; [exact E2|]. unfold handle_sensor_data in E1. apply bind_Ok_inv in E1 as (w2 & E3 & E1).
      destruct (gf_update_inv mp f (ts_delta s) I) as (w2' & E3' & I2). rewrite E3 in E3'. injection E3' as <-.
      apply bind_Ok_inv in E1 as (w3 & E4 & E1). apply gf_observe_inv with (mp := mp) in E4; [|exact I2].
      apply bind_Ok_inv in E1 as (pp & _ & E1). apply bind_Ok_inv in E1 as (mm & _ & E1). now injection E1 as <- <-.
  Qed.
End GM.
