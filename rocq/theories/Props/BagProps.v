(** C41: playing back a bag. *)
From Coq Require Import List Bool Lia Arith.
From Verif.Base Require Import Outcome.
From Verif.Model Require Import BagTopic.
From Verif.Spec Require Import BagSpec.
From Verif.Proofs Require Import BagProofs.
Import ListNotations.

(** For every bag and every behaviour of the transform cache: the client sees messages of the bag in bag order, each at most
    once, with a transform found for it with the (not ignored) transforms of a part of the bag up to and including it; skipped
    messages were too old for such a part; the messages left over are a tail, left because its first one has no transform at
    the end of the bag or because the message before it was dropped there. *)
Theorem C41_delivered_in_order_partial :
  forall (msg tf transform cache : Type) (set_transform : cache -> tf -> cache) (lookup : cache -> msg -> answer transform) (skip : tf -> bool) c0 es fuel xs b,
  playback set_transform lookup skip fuel (mkBag es c0 []) = Ok (xs, b) ->
  exists handled dropped, messages es = handled ++ msg_cache b /\ fates handled xs dropped /\
    (forall m t, In (m, t) xs -> exists p, prefix p es /\ In m (messages p) /\ lookup (known set_transform skip c0 p) m = Found t) /\
    (forall d, In d dropped -> exists p, prefix p es /\ In d (messages p) /\ lookup (known set_transform skip c0 p) d = IntoPast) /\
    ((exists d, In d dropped /\ lookup (known set_transform skip c0 es) d = IntoPast) \/ msg_cache b = [] \/
     exists m q, msg_cache b = m :: q /\ (lookup (known set_transform skip c0 es) m = IntoFuture \/ lookup (known set_transform skip c0 es) m = Extrapolation)).
Proof.
  intros msg tf transform cache st lookup skip c0 es fuel xs b E. destruct (playback_spec st lookup skip fuel _ _ _ E) as (_ & A & ms & ds & B & C & D & F & G).
  cbn [rest tf_cache msg_cache] in *. rewrite A in G. exists ms, ds. split; [exact B|]. split; [exact C|]. split; [exact D|]. split; [exact F|exact G].
Qed.
Print Assumptions C41_delivered_in_order_partial.

(** Everything is delivered if no message is ever too old for the cache and all are transformable in the end. *)
Theorem C41_all_delivered_partial :
  forall (msg tf transform cache : Type) (set_transform : cache -> tf -> cache) (lookup : cache -> msg -> answer transform) (skip : tf -> bool) c0 es,
  (forall p m, prefix p es -> In m (messages p) -> lookup (known set_transform skip c0 p) m = IntoFuture \/ exists t, lookup (known set_transform skip c0 p) m = Found t) ->
  (forall m, In m (messages es) -> exists t, lookup (known set_transform skip c0 es) m = Found t) ->
  forall fuel, length (messages es) < fuel -> exists xs b, playback set_transform lookup skip fuel (mkBag es c0 []) = Ok (xs, b) /\ map fst xs = messages es.
Proof.
  intros msg tf transform cache st lookup skip c0 es H1 H2 fuel Hf.
  destruct (playback_total st lookup skip fuel (mkBag es c0 [])) as (xs & b & E); [|exact Hf|].
  { intros p m P I. cbn [rest tf_cache msg_cache app] in *. destruct (H1 p m P I) as [->|(t & ->)]; discriminate. }
  exists xs, b. split; [exact E|]. destruct (C41_delivered_in_order_partial _ _ _ _ st lookup skip c0 es fuel xs b E) as (ms & ds & B & C & _ & F & G).
  assert (D0 : ds = []).
  { destruct ds as [|d ds]; [reflexivity|]. exfalso. destruct (F d (or_introl eq_refl)) as (p & P & I & L). destruct (H1 p d P I) as [X|(t & X)]; congruence. }
  subst ds. assert (Q : msg_cache b = []).
  { destruct G as [(d & [] & _)|[G|(m & q & Eq & L)]]; [exact G|]. exfalso. destruct (H2 m) as (t & X); [rewrite B, Eq; apply in_app_iff; right; now left|]. destruct L as [L|L]; congruence. }
  rewrite Q, app_nil_r in B. rewrite B. now apply fates_no_drop.
Qed.
Print Assumptions C41_all_delivered_partial.

(** Playback ends (with one call more than there are messages) unless a lookup throws something else than an extrapolation. *)
Theorem C41_playback_ends :
  forall (msg tf transform cache : Type) (set_transform : cache -> tf -> cache) (lookup : cache -> msg -> answer transform) (skip : tf -> bool) c0 es,
  (forall p m, prefix p es -> In m (messages p) -> lookup (known set_transform skip c0 p) m <> Unknown) ->
  forall fuel, length (messages es) < fuel -> exists xs b, playback set_transform lookup skip fuel (mkBag es c0 []) = Ok (xs, b).
Proof. intros. now apply playback_total. Qed.
Print Assumptions C41_playback_ends.

(** A message that comes before its frame is known ends the program. *)
Theorem C41_early_message_throws :
  forall (msg tf transform cache : Type) (set_transform : cache -> tf -> cache) (lookup : cache -> msg -> answer transform) (skip : tf -> bool) c0 p m es fuel,
  messages p = [] -> lookup (known set_transform skip c0 p) m = Unknown -> playback set_transform lookup skip (S fuel) (mkBag (p ++ Msg m :: es) c0 []) = Abort.
Proof.
  intros msg tf transform cache st lookup skip c0 p m es fuel Hp L. cbn [playback]. unfold extract_next_msg. cbn [rest tf_cache msg_cache]. revert c0 Hp L.
  induction p as [|e p IH]; intros c0 Hp L.
  - cbn [app extract_loop take_entry has_synced_msg]. change (known st skip c0 []) with c0 in L. rewrite L. reflexivity.
  - destruct e as [x|ts]; [discriminate|]. cbn [app extract_loop]. rewrite take_spec. cbn [messages flat_map app has_synced_msg bind]. apply IH; [exact Hp|]. rewrite <- L. f_equal. symmetry. apply (known_app st skip c0 [Tf ts]).
Qed.
Print Assumptions C41_early_message_throws.

(** A cache for one pair of frames, with the expiry the code configures (1000 s; bag_topic_with_transform.h:34): stamps of the
    transforms in seconds; a lookup succeeds between the oldest and the latest stamp. *)
Definition ex_set (c : list nat) (t : nat) : list nat := filter (fun s => list_max (t :: c) <=? s + 1000) (t :: c).
Definition ex_lookup (c : list nat) (m : nat) : answer unit :=
  match c with
  | [] => Unknown
  | _ => if list_max c <? m then IntoFuture else if forallb (fun s => m <? s) c then IntoPast else Found tt
  end.
(** The claim fails: with stamps in order, two scans that are too old at the end of the bag lose all that follow although
    they are transformable. *)
Theorem C41_tail_lost_refuted : let es := [Tf [20]; Msg 30; Msg 31; Msg 2000; Tf [2000]] in
  exists xs b, playback ex_set ex_lookup (fun _ => false) 10 (mkBag es [] []) = Ok (xs, b) /\
    In 2000 (messages es) /\ ex_lookup (known ex_set (fun _ => false) [] es) 2000 = Found tt /\ ~ In 2000 (map fst xs).
Proof. eexists. eexists. split; [vm_compute; reflexivity|]. split; [cbn; auto|]. split; [vm_compute; reflexivity|]. intros []. Qed.
Print Assumptions C41_tail_lost_refuted.

(** a bag for which everything is delivered *)
Example C41_delivered_example : exists xs b, playback ex_set ex_lookup (fun t => t =? 99) 10 (mkBag [Tf [10]; Tf [99]; Msg 12; Msg 14; Tf [13]; Msg 16; Tf [20]] [] []) = Ok (xs, b) /\ map fst xs = [12; 14; 16].
Proof.
  apply (C41_all_delivered_partial nat nat unit (list nat) ex_set ex_lookup (fun t => t =? 99) []); [| |cbn; lia].
  - intros p m (s & E) I. repeat (destruct p as [|e p]; [cbn in I; repeat (destruct I as [<-|I]; [vm_compute; first [now left|right; eexists; reflexivity]|]); destruct I|cbn [app] in E; try discriminate E; injection E as <- E]).
  - intros m I. cbn in I. repeat (destruct I as [<-|I]; [vm_compute; eexists; reflexivity|]). destruct I.
Qed.
