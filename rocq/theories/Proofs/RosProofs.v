(** The ROS side of a node. *)
From Coq Require Import Ascii String ZArith List Bool Lia Reals Lra.
From Verif.Base Require Import Outcome Num.
From Verif.Model Require Import MathUtils Geometry Sensor Properties Render RosNode BagRunner.
From Verif.Spec Require Import PropertiesSpec RosSpec.
From Verif.Proofs Require Import PropertiesProofs RenderProofs.
Import ListNotations.
Local Open Scope R_scope.

Ltac rops := cbn [dadd dsub dmul ddiv dopp dofZ ROps] in *.
Lemma yaw_basis_R th : yaw_basis cos sin th = mkM3 (mkV3 (cos th) (- sin th) 0) (mkV3 (sin th) (cos th) 0) (mkV3 0 0 1).
Proof.
  unfold yaw_basis. rops. set (h := th / 2). assert (E : th = 2 * h) by (unfold h; field).
  assert (S2 : sin h * sin h + cos h * cos h = 1) by (assert (H := sin2_cos2 h); unfold Rsqr in H; exact H). rewrite S2.
  rewrite E, cos_2a_sin, sin_2a. f_equal; f_equal; field.
Qed.
Lemma pose_tf_places p : is_pose p (pose_tf cos sin p).
Proof.
  intros q. unfold pose_tf, tf_apply, placed. cbn [tf_basis tf_origin]. rewrite yaw_basis_R. unfold m3_apply, v3_add, v3_dot. cbn [m_r0 m_r1 m_r2 v_x v_y v_z]. rops. f_equal; ring.
Qed.
(** *** matrices *)
Ltac mats := unfold tf_apply, tf_mul, tf_inverse, m3_mul, m3_apply, m3_transpose, v3_add, v3_opp, v3_dot, column in *;
  cbn [tf_basis tf_origin m_r0 m_r1 m_r2 v_x v_y v_z] in *; rops.
Lemma v3_eq (x y z x' y' z' : R) : x = x' -> y = y' -> z = z' -> mkV3 x y z = mkV3 x' y' z'.
Proof. intros -> -> ->. reflexivity. Qed.
Lemma m3_mul_apply (a b : mat3 R) v : m3_apply (m3_mul a b) v = m3_apply a (m3_apply b v).
Proof. destruct a as [[? ? ?] [? ? ?] [? ? ?]], b as [[? ? ?] [? ? ?] [? ? ?]], v as [? ? ?]. mats. apply v3_eq; ring. Qed.
Lemma m3_transpose_mul (a b : mat3 R) : m3_transpose (m3_mul a b) = m3_mul (m3_transpose b) (m3_transpose a).
Proof. destruct a as [[? ? ?] [? ? ?] [? ? ?]], b as [[? ? ?] [? ? ?] [? ? ?]]. mats. f_equal; apply v3_eq; ring. Qed.
Lemma m3_apply_add (m : mat3 R) u v : m3_apply m (v3_add u v) = v3_add (m3_apply m u) (m3_apply m v).
Proof. destruct m as [[? ? ?] [? ? ?] [? ? ?]], u, v. mats. apply v3_eq; ring. Qed.
Definition isometry (m : mat3 R) : Prop := forall v, m3_apply (m3_transpose m) (m3_apply m v) = v.
Lemma orthogonal_isometry m : orthogonal m -> isometry m.
Proof.
  destruct m as [[a b c] [d e f] [g h i]]. intros (H1 & H2 & H3 & H4 & H5 & H6) [x y z]. mats. apply v3_eq.
  - replace (_ + _ + _) with ((a * a + d * d + g * g) * x + (a * b + d * e + g * h) * y + (a * c + d * f + g * i) * z) by ring. rewrite H1, H4, H5. ring.
  - replace (_ + _ + _) with ((a * b + d * e + g * h) * x + (b * b + e * e + h * h) * y + (b * c + e * f + h * i) * z) by ring. rewrite H2, H4, H6. ring.
  - replace (_ + _ + _) with ((a * c + d * f + g * i) * x + (b * c + e * f + h * i) * y + (c * c + f * f + i * i) * z) by ring. rewrite H3, H5, H6. ring.
Qed.
Lemma isometry_mul a b : isometry a -> isometry b -> isometry (m3_mul a b).
Proof. intros A B v. rewrite m3_transpose_mul, !m3_mul_apply, A. apply B. Qed.
Lemma yaw_isometry th : isometry (yaw_basis cos sin th) /\ isometry (m3_transpose (yaw_basis cos sin th)).
Proof.
  rewrite yaw_basis_R. assert (T := sin2_cos2 th). unfold Rsqr in T. split; apply orthogonal_isometry; mats; repeat split; mats; try ring; lra.
Qed.
Lemma tf_inverse_apply (t : transform R) q : isometry (tf_basis t) -> tf_apply (tf_inverse t) (tf_apply t q) = q.
Proof.
  intros H. unfold tf_inverse, tf_apply. cbn [tf_basis tf_origin]. rewrite m3_apply_add, H.
  destruct t as [[[? ? ?] [? ? ?] [? ? ?]] [? ? ?]], q as [? ? ?]. mats. apply v3_eq; ring.
Qed.
Lemma tf_mul_apply (a b : transform R) q : tf_apply (tf_mul a b) q = tf_apply a (tf_apply b q).
Proof.
  unfold tf_mul, tf_apply. cbn [tf_basis tf_origin]. rewrite m3_mul_apply, m3_apply_add.
  destruct (tf_origin a), (m3_apply (tf_basis a) (m3_apply (tf_basis b) q)), (m3_apply (tf_basis a) (tf_origin b)). mats. apply v3_eq; ring.
Qed.
Lemma correction_corrects c t p : orthogonal (tf_basis t) -> corrects t p (snd (correction_pose cos sin (correction_msg c t) p)).
Proof.
  intros O q. apply orthogonal_isometry in O. unfold correction_pose, correction_msg. cbn [snd co_odom2base].
  set (o2b := mkTf (tf_basis t) (mkV3 (v_x (tf_origin t)) (v_y (tf_origin t)) 0)). set (P := pose_tf cos sin p).
  change (dofZ 0) with 0. fold o2b.
  assert (E : in_odometry t q = tf_apply (tf_mul o2b (tf_inverse P)) (placed p q)).
  { rewrite tf_mul_apply, <- (pose_tf_places p q). fold P. rewrite tf_inverse_apply by apply yaw_isometry.
    unfold in_odometry, o2b. destruct t as [[[? ? ?] [? ? ?] [? ? ?]] [? ? ?]], q as [? ? ?]. mats. apply v3_eq; ring. }
  rewrite E. apply tf_inverse_apply. apply isometry_mul; [exact O|]. apply yaw_isometry.
Qed.

(** *** the loop of a node *)
Section Loop.
  Context {D : Type} {ops : DOps D} {M S : Type}.
  Variables (dcos dsin : D -> D) (stamp : M -> Z) (slam : S -> M -> transform D -> outcome (S * list (pose D))) (pose_subs : list sink).
  Lemma notify_pose_slam subs : forall (n : node D S) p, n_slam (fst (notify_pose dcos dsin subs n p)) = n_slam n.
  Proof.
    induction subs as [|s subs IH]; intros n p; [reflexivity|]. cbn [notify_pose]. destruct s; cbn [correction_pose].
    - specialize (IH (mkNode (fst (correction_pose dcos dsin (n_corr n) p)) (n_time n) (n_slam n)) p). cbn [n_slam correction_pose fst] in IH.
      destruct (notify_pose _ _ subs _ p) as [n' out']. exact IH.
    - specialize (IH n p). destruct (notify_pose _ _ subs _ p) as [n' out']. exact IH.
    - specialize (IH n p). destruct (notify_pose _ _ subs _ p) as [n' out']. exact IH.
  Qed.
  Lemma notify_poses_slam ps : forall (n : node D S), n_slam (fst (notify_poses dcos dsin pose_subs n ps)) = n_slam n.
  Proof.
    induction ps as [|p ps IH]; intros n; [reflexivity|]. cbn [notify_poses]. assert (H := notify_pose_slam pose_subs n p). destruct (notify_pose _ _ _ n p) as [n' out'].
    specialize (IH n'). destruct (notify_poses _ _ _ n' ps) as [n2 o2]. cbn [fst] in *. congruence.
  Qed.
  Definition scans (subs : list (sink * bool)) : nat := length (filter (fun sb => match sb with (SScan, true) => true | _ => false end) subs).
  Lemma dispatch_idle subs : scans subs = O -> forall n m t, exists n', dispatch dcos dsin stamp slam pose_subs subs n m t = Ok (n', []) /\ n_slam n' = n_slam n.
  Proof.
    induction subs as [|[s al] subs IH]; intros Z n m t; [exists n; auto|]. cbn [dispatch]. unfold scans in Z. cbn [filter] in Z.
    assert (Z' : scans subs = O) by (destruct s, al; exact Z || discriminate Z). destruct al.
    - destruct s; cbn [handle_msg bind]; [| |discriminate Z].
      + destruct (IH Z' (mkNode (correction_msg (n_corr n) t) (n_time n) (n_slam n)) m t) as (n' & E & H). rewrite E. exists n'. auto.
      + destruct (IH Z' (mkNode (n_corr n) (stamp m) (n_slam n)) m t) as (n' & E & H). rewrite E. exists n'. auto.
    - cbn [bind]. destruct (IH Z' n m t) as (n' & E & H). rewrite E. exists n'. auto.
  Qed.
  Lemma dispatch_one subs : scans subs = 1%nat -> forall n m t,
    match slam (n_slam n) m t with
    | Ok (w, _) => exists n' out, dispatch dcos dsin stamp slam pose_subs subs n m t = Ok (n', out) /\ n_slam n' = w
    | _ => forall x, dispatch dcos dsin stamp slam pose_subs subs n m t <> Ok x
    end.
  Proof.
    induction subs as [|[s al] subs IH]; intros Z n m t; [discriminate Z|]. cbn [dispatch]. unfold scans in Z. cbn [filter] in Z.
    destruct al.
    - destruct s; cbn [handle_msg bind].
      + specialize (IH Z (mkNode (correction_msg (n_corr n) t) (n_time n) (n_slam n)) m t). cbn [n_slam] in IH.
        destruct (slam (n_slam n) m t) as [[w ps]| | |]; [destruct IH as (n' & out & E & H); rewrite E; exists n', ([] ++ out); auto|..];
          intros x E; destruct (dispatch _ _ _ _ _ subs _ m t) as [[a b]| | |]; try discriminate E; eapply IH; reflexivity.
      + specialize (IH Z (mkNode (n_corr n) (stamp m) (n_slam n)) m t). cbn [n_slam] in IH.
        destruct (slam (n_slam n) m t) as [[w ps]| | |]; [destruct IH as (n' & out & E & H); rewrite E; exists n', ([] ++ out); auto|..];
          intros x E; destruct (dispatch _ _ _ _ _ subs _ m t) as [[a b]| | |]; try discriminate E; eapply IH; reflexivity.
      + cbn [length] in Z. injection Z as Z. destruct (slam (n_slam n) m t) as [[w ps]| | |]; cbn [bind]; try (intros x E; discriminate E).
        assert (H := notify_poses_slam ps (mkNode (n_corr n) (n_time n) w)). destruct (notify_poses _ _ _ _ ps) as [n1 o1]. cbn [fst n_slam] in H.
        destruct (dispatch_idle subs Z n1 m t) as (n' & E & H'). rewrite E. cbn [bind]. exists n', (o1 ++ []). split; [reflexivity|congruence].
    - cbn [bind]. assert (Z' : scans subs = 1%nat) by (destruct s; exact Z). specialize (IH Z' n m t).
      destruct (slam (n_slam n) m t) as [[w ps]| | |]; [destruct IH as (n' & out & E & H); rewrite E; exists n', ([] ++ out); auto|..];
          intros x E; destruct (dispatch _ _ _ _ _ subs _ m t) as [[a b]| | |]; try discriminate E; eapply IH; reflexivity.
  Qed.
  Lemma spin_handles subs : scans subs = 1%nat -> forall ms n,
    (forall n' outs, spin dcos dsin stamp slam pose_subs subs n ms = Ok (n', outs) -> handles slam (n_slam n) (known ms) (n_slam n')) /\
    (forall s', handles slam (n_slam n) (known ms) s' -> exists n' outs, spin dcos dsin stamp slam pose_subs subs n ms = Ok (n', outs) /\ n_slam n' = s').
  Proof.
    intros Z ms. induction ms as [|[m [t|]] ms IH]; intros n; cbn [spin known transformed_msg_cb].
    - split; [intros n' outs E; injection E as <- <-; constructor|]. intros s' H. inversion H; subst. exists n, []. auto.
    - assert (H := dispatch_one subs Z n m t). split.
      + intros n' outs E. destruct (slam (n_slam n) m t) as [[w ps]| | |] eqn:Es.
        * destruct H as (n1 & out & Ed & Hw). rewrite Ed in E. cbn [bind] in E. destruct (spin _ _ _ _ _ subs n1 ms) as [[n2 o2]| | |] eqn:E2; try discriminate E. injection E as <- <-.
          apply (h_scan _ _ _ _ _ w ps); [exact Es|]. rewrite <- Hw. apply (proj1 (IH n1) _ _ E2).
        * destruct (dispatch _ _ _ _ _ subs n m t) as [x| | |]; try discriminate E. destruct (H x eq_refl).
        * destruct (dispatch _ _ _ _ _ subs n m t) as [x| | |]; try discriminate E. destruct (H x eq_refl).
        * destruct (dispatch _ _ _ _ _ subs n m t) as [x| | |]; try discriminate E. destruct (H x eq_refl).
      + intros s' Hh. inversion Hh as [|? ? ? ? s1 ps ? Es Hr]; subst. rewrite Es in H. destruct H as (n1 & out & Ed & Hw). rewrite Ed. cbn [bind].
        rewrite <- Hw in Hr. destruct (proj2 (IH n1) _ Hr) as (n' & outs & E & Hs). rewrite E. cbn [bind]. exists n', (out :: outs). auto.
    - cbn [bind]. split.
      + intros n' outs E. destruct (spin _ _ _ _ _ subs n ms) as [[n2 o2]| | |] eqn:E2; try discriminate E. injection E as <- <-. apply (proj1 (IH n) _ _ E2).
      + intros s' Hh. destruct (proj2 (IH n) _ Hh) as (n' & outs & E & Hs). rewrite E. cbn [bind]. exists n', ([] :: outs). auto.
  Qed.
End Loop.

(** *** the trajectory text *)
Lemma decimal_digits s z : decimal s z -> forall c, In c s -> exists d, is_digit c d.
Proof. intros H. induction H as [c d H|s z c d H IH Hd]; intros x I; [destruct I as [<-|[]]; eauto|]. apply in_app_or in I. destruct I as [I|[<-|[]]]; eauto. Qed.
Lemma decimal_nonneg s z : decimal s z -> (0 <= z)%Z.
Proof. intros H. induction H as [c d [H _]|s z c d H IH [Hd _]]; lia. Qed.
Lemma decimal_fun s z z' : decimal s z -> decimal s z' -> z = z'.
Proof.
  intros H H'. assert (N : not_digit_first []) by (intros c s' d E; discriminate E).
  destruct (digits_rest s [] N z H) as [A _]. destruct (digits_rest s [] N z' H') as [B _]. congruence.
Qed.
Lemma dot_not_digit d : ~ is_digit "."%char d.
Proof. intros [H E]. change (46 = 48 + d)%Z in E. lia. Qed.
Lemma reads_fun s v v' : reads_as s v -> reads_as s v' -> v = v'.
Proof.
  intros (a & b & za & zb & E & Ha & Hb & ->) (a' & b' & za' & zb' & E' & Ha' & Hb' & ->). rewrite E in E'.
  assert (D : forall x z, decimal x z -> ~ In "."%char x) by (intros x z H I; destruct (decimal_digits x z H _ I) as [d Hd]; exact (dot_not_digit d Hd)).
  assert (Ea : a = a' /\ b = b').
  { assert (Na := D _ _ Ha). assert (Na' := D _ _ Ha'). clear -E' Na Na'. revert a' E' Na'. induction a as [|c a IH]; intros [|c' a'] E' Na'; cbn in *.
    - injection E' as <-. auto.
    - injection E' as <- _. destruct Na'. left. reflexivity.
    - injection E' as -> _. destruct Na. left. reflexivity.
    - injection E' as <- E'. destruct (IH (fun H => Na (or_intror H)) a' E' (fun H => Na' (or_intror H))) as [-> ->]. auto. }
  destruct Ea as [<- <-]. rewrite (decimal_fun _ _ _ Ha Ha'), (decimal_fun _ _ _ Hb Hb'). reflexivity.
Qed.
Lemma digits_len : forall fuel z, (0 < z)%Z -> (Z.to_nat z < fuel)%nat -> exists k, length (digits_str fuel z) = S k /\ (10 ^ Z.of_nat k <= z < 10 ^ Z.of_nat (S k))%Z.
Proof.
  induction fuel as [|fuel IH]; intros z Hz Hf; [lia|]. cbn [digits_str]. rewrite app_length. cbn [length]. destruct (Z.ltb_spec z 10) as [L|L].
  - exists O. cbn. split; [reflexivity|lia].
  - assert (z / 10 < z)%Z by (apply Z.div_lt; lia). assert (H10 : (0 < z / 10)%Z) by (apply Z.div_str_pos; lia).
    destruct (IH (z / 10)%Z H10 ltac:(lia)) as (k & El & Hk). exists (S k). rewrite El. split; [lia|].
    assert (E := Z.div_mod z 10 ltac:(lia)). assert (M := Z.mod_pos_bound z 10 ltac:(lia)).
    rewrite !(Nat2Z.inj_succ), !Z.pow_succ_r in * by lia. lia.
Qed.
Lemma to_string_len z : (0 < z)%Z -> exists k, length (to_string z) = S k /\ (10 ^ Z.of_nat k <= z < 10 ^ Z.of_nat (S k))%Z.
Proof. intros H. unfold to_string. destruct (Z.ltb_spec z 0); [lia|]. apply digits_len; lia. Qed.
Lemma stamp_reads sec nsec : (0 <= sec)%Z -> (0 <= nsec)%Z -> reads_as (tum_stamp sec nsec) (IZR sec + IZR nsec / 10 ^ length (to_string nsec)).
Proof. intros A B. exists (to_string sec), (to_string nsec), sec, nsec. repeat split; auto using to_string_decimal. Qed.

(** *** nodes *)
Definition flat (t : transform R) : transform R := mkTf (tf_basis t) (mkV3 (v_x (tf_origin t)) (v_y (tf_origin t)) 0).
Lemma flat_msg c t : co_odom2base (correction_msg c t) = flat t.
Proof. reflexivity. Qed.
Lemma flat_corrects c t p : orthogonal (tf_basis t) -> co_odom2base c = flat t -> corrects t p (snd (correction_pose cos sin c p)).
Proof. intros O E. assert (H := correction_corrects c t p O). unfold correction_pose in *. cbn [snd] in *. rewrite flat_msg in H. rewrite E. exact H. Qed.
Section NodeLoops.
  Context {M S : Type}.
  Variables (stamp : M -> Z) (slam : S -> M -> transform R -> outcome (S * list (pose R))).
  Lemma notify_1h t : orthogonal (tf_basis t) -> forall ps (n : node R S), co_odom2base (n_corr n) = flat t ->
    exists n' gs, notify_poses cos sin node_1h_poses n ps = (n', concat gs) /\
    Forall2 (fun p g => exists c, g = [SentCorrection c] /\ corrects t p c) ps gs /\ n_slam n' = n_slam n.
  Proof.
    intros O ps. induction ps as [|p ps IH]; intros n E; [exists n, []; repeat split; constructor|].
    assert (C := flat_corrects (n_corr n) t p O E). cbn [notify_poses notify_pose node_1h_poses].
    destruct (correction_pose cos sin (n_corr n) p) as [c' x] eqn:Ec. cbn [snd] in C. cbn [app].
    assert (E' : co_odom2base (n_corr (mkNode c' (n_time n) (n_slam n))) = flat t) by (unfold correction_pose in Ec; injection Ec as <- _; exact E).
    destruct (IH _ E') as (n' & gs & En & Hg & Hs). rewrite En. exists n', ([SentCorrection x] :: gs). split; [reflexivity|]. split; [|exact Hs]. constructor; [exists x; auto|exact Hg].
  Qed.
  Lemma notify_gmapping t : orthogonal (tf_basis t) -> forall z ps (n : node R S), co_odom2base (n_corr n) = flat t -> n_time n = z ->
    exists n' gs, notify_poses cos sin node_gmapping_poses n ps = (n', concat gs) /\
    Forall2 (fun p g => exists c x, g = [SentCorrection c; SentPose z x] /\ corrects t p c /\ is_pose p x) ps gs /\ n_slam n' = n_slam n.
  Proof.
    intros O z ps. induction ps as [|p ps IH]; intros n E Et; [exists n, []; repeat split; constructor|].
    assert (C := flat_corrects (n_corr n) t p O E). cbn [notify_poses notify_pose node_gmapping_poses].
    destruct (correction_pose cos sin (n_corr n) p) as [c' x] eqn:Ec. cbn [snd] in C. cbn [app n_time].
    assert (E' : co_odom2base (n_corr (mkNode c' (n_time n) (n_slam n))) = flat t) by (unfold correction_pose in Ec; injection Ec as <- _; exact E).
    destruct (IH _ E' Et) as (n' & gs & En & Hg & Hs). rewrite En. exists n', ([SentCorrection x; SentPose z (pose_tf cos sin p)] :: gs). split; [cbn [concat app]; rewrite Et; reflexivity|]. split; [|exact Hs].
    constructor; [|exact Hg]. exists x, (pose_tf cos sin p). split; [reflexivity|]. split; [exact C|]. apply pose_tf_places.
  Qed.
  Lemma spin_general topic poses (G : M -> transform R -> pose R -> list (sent R) -> Prop) :
    (forall n m t w ps, slam (n_slam n) m t = Ok (w, ps) -> orthogonal (tf_basis t) ->
      exists n' gs, dispatch cos sin stamp slam poses topic n m t = Ok (n', concat gs) /\ Forall2 (G m t) ps gs /\ n_slam n' = w) ->
    (forall n m t x, dispatch cos sin stamp slam poses topic n m t = Ok x -> exists y, slam (n_slam n) m t = Ok y) ->
    forall ms n, (forall m t, In (m, Some t) ms -> orthogonal (tf_basis t)) ->
    (forall s' pss, announced slam (n_slam n) ms s' pss ->
      exists n' outs, spin cos sin stamp slam poses topic n ms = Ok (n', outs) /\ n_slam n' = s' /\ sent_for G ms pss outs) /\
    (forall n' outs, spin cos sin stamp slam poses topic n ms = Ok (n', outs) -> exists pss, announced slam (n_slam n) ms (n_slam n') pss).
  Proof.
    intros HG HD ms. induction ms as [|[m [t|]] ms IH]; intros n O.
    - split; [|intros n' outs E; injection E as <- <-; exists []; constructor]. intros s' pss H. inversion H; subst. exists n, []. split; [reflexivity|]. split; [reflexivity|].
      split; [reflexivity|]. split; [reflexivity|]. intros [|i] m t ps out E; discriminate E.
    - assert (Ot : orthogonal (tf_basis t)) by (apply (O m); left; reflexivity). assert (O' : forall m t, In (m, Some t) ms -> orthogonal (tf_basis t)) by (intros m' t' I; apply (O m'); right; exact I).
      cbn [spin transformed_msg_cb]. split.
      + intros s' pss H. inversion H as [| |? ? ? ? s1 ps ? pss' Es Hr]; subst. destruct (HG n m t s1 ps Es Ot) as (n1 & gs & Ed & Hg & Hs). rewrite Ed. cbn [bind]. rewrite <- Hs in Hr.
        destruct (proj1 (IH n1 O') _ _ Hr) as (n' & outs & E & Hn & (L1 & L2 & Ho)). rewrite E. cbn [bind]. exists n', (concat gs :: outs). split; [reflexivity|]. split; [exact Hn|].
        split; [cbn; lia|]. split; [cbn; lia|]. intros [|i] m' t' ps' out' E1 E2 E3; cbn in E1, E2, E3; [|exact (Ho i m' t' ps' out' E1 E2 E3)].
        injection E1 as <- <-. injection E2 as <-. injection E3 as <-. exists gs. auto.
      + intros n' outs E. destruct (dispatch cos sin stamp slam poses topic n m t) as [[n1 o1]| | |] eqn:Ed; try discriminate E. cbn [bind] in E.
        destruct (HD n m t _ Ed) as [[w ps] Es]. destruct (HG n m t w ps Es Ot) as (n1' & gs & Ed' & _ & Hs). rewrite Ed in Ed'. injection Ed' as <- _.
        destruct (spin cos sin stamp slam poses topic n1 ms) as [[n2 o2]| | |] eqn:E2; try discriminate E. injection E as <- <-.
        destruct (proj2 (IH n1 O') _ _ E2) as [pss Hp]. rewrite Hs in Hp. exists (ps :: pss). eapply ann_scan; eassumption.
    - assert (O' : forall m t, In (m, Some t) ms -> orthogonal (tf_basis t)) by (intros m' t' I; apply (O m'); right; exact I).
      cbn [spin transformed_msg_cb bind]. split.
      + intros s' pss H. inversion H as [|? ? ? ? pss' Hr|]; subst. destruct (proj1 (IH n O') _ _ Hr) as (n' & outs & E & Hn & (L1 & L2 & Ho)). rewrite E. cbn [bind]. exists n', ([] :: outs). split; [reflexivity|]. split; [exact Hn|].
        split; [cbn; lia|]. split; [cbn; lia|]. intros [|i] m' t' ps' out' E1 E2 E3; cbn in E1, E2, E3; [|exact (Ho i m' t' ps' out' E1 E2 E3)].
        injection E1 as <- <-. injection E3 as <-. reflexivity.
      + intros n' outs E. destruct (spin cos sin stamp slam poses topic n ms) as [[n2 o2]| | |] eqn:E2; try discriminate E. injection E as <- <-.
        destruct (proj2 (IH n O') _ _ E2) as [pss Hp]. exists ([] :: pss). apply ann_skip. exact Hp.
  Qed.
End NodeLoops.
Lemma one_scans subs : one_scan_observer subs -> scans subs = 1%nat.
Proof.
  intros (a & b & -> & Na & Nb). unfold scans. rewrite filter_app, app_length. cbn [filter length].
  assert (Z : forall l, ~ In (SScan, true) l -> filter (fun sb : sink * bool => match sb with (SScan, true) => true | _ => false end) l = []).
  { induction l as [|[s al] l IH]; intros N; [reflexivity|]. cbn [filter]. rewrite IH by (intros I; apply N; right; exact I). destruct s, al; try reflexivity. destruct N. left. reflexivity. }
  rewrite (Z a Na), (Z b Nb). reflexivity.
Qed.

(** *** launch parameters *)
Section LaunchFacts.
  Context {D : Type}.
  Lemma set_all_other h id : forall (p : pserver D), last_set h id None -> fold_left (fun p kv => l_set p (fst kv) (snd kv)) h p id = p id.
  Proof.
    induction h as [|[k v] h IH]; intros p L; [reflexivity|]. cbn [fold_left fst snd]. rewrite IH by (intros w I; apply (L w); right; exact I).
    unfold l_set. destruct (str_eqb k id) eqn:E; [|reflexivity]. apply str_eqb_eq in E. subst k. destruct (L v). left. reflexivity.
  Qed.
  Lemma set_all_last h id v (p : pserver D) : last_set h id (Some v) -> fold_left (fun p kv => l_set p (fst kv) (snd kv)) h p id = Some (PStr v).
  Proof.
    intros (h1 & h2 & -> & N). rewrite fold_left_app. cbn [fold_left fst snd]. rewrite (set_all_other h2 id _ N). unfold l_set. replace (str_eqb id id) with true by (symmetry; apply str_eqb_eq; reflexivity). reflexivity.
  Qed.
  Lemma config_out file names id : ~ In id names -> forall p : pserver D, use_config p file names id = p id.
  Proof.
    unfold use_config. induction names as [|k names IH]; intros N p; [reflexivity|]. cbn [fold_left]. rewrite IH by (intros I; apply N; right; exact I).
    unfold l_set. destruct (str_eqb k id) eqn:E; [|reflexivity]. apply str_eqb_eq in E. destruct N. left. exact E.
  Qed.
  Lemma config_in (file : props) names id v : file id = Some v -> forall p : pserver D, In id names -> use_config p file names id = Some (PStr v).
  Proof.
    intros E. assert (H : forall names (p : pserver D), p id = Some (PStr v) -> use_config p file names id = Some (PStr v)).
    { intros l. induction l as [|k l IH]; intros p Hp; [exact Hp|]. apply (IH (l_set p k (get_str file k []))). unfold l_set. destruct (str_eqb k id) eqn:Ek; [|exact Hp].
      apply str_eqb_eq in Ek. subst k. unfold get_str. rewrite E. reflexivity. }
    induction names as [|k names IH]; intros p I; [destruct I|]. destruct I as [->|I]; [|exact (IH _ I)].
    apply (H names). unfold l_set, get_str. rewrite E. replace (str_eqb id id) with true by (symmetry; apply str_eqb_eq; reflexivity). reflexivity.
  Qed.
End LaunchFacts.
Lemma digits_from_nonneg s : forall acc, (0 <= acc)%Z -> (0 <= digits_from acc s)%Z.
Proof.
  induction s as [|c s IH]; intros acc H; [exact H|]. cbn [digits_from]. destruct (digit c) as [d|] eqn:E; [|exact H]. apply digit_spec in E. destruct E as [E _]. apply IH. lia.
Qed.
Lemma stoi_stoul v z : bind (stoi v) (fun w => bind (assert_ (0 <=? w)%Z) (fun _ => Ok w)) = Ok z -> bind (stoul v) (fun w => Ok (w mod 2 ^ 32)%Z) = Ok z.
Proof.
  unfold stoi, stoul, parse_number. destruct (take_sign (skip_spaces v)) as [neg s]. destruct (starts_with_digit s); cbn [bind]; [|discriminate].
  assert (N := digits_from_nonneg s 0 ltac:(lia)). set (n := digits_from 0 s) in *. set (w := if neg then (- n)%Z else n).
  destruct (in_int w) eqn:I; cbn [bind]; [|discriminate]. unfold in_int in I. apply andb_true_iff in I. destruct I as [I1 I2]. apply Z.leb_le in I1. apply Z.leb_le in I2. unfold int_min, int_max in *.
  destruct (Z.leb_spec 0 w) as [L|L]; cbn [assert_ bind]; [|discriminate]. intros E. injection E as <-.
  destruct (Z.ltb_spec n (2 ^ 64)) as [C|C]; [|exfalso; unfold w in *; destruct neg; lia]. cbn [bind]. f_equal. unfold w in *. destruct neg.
  - replace n with 0%Z by lia. reflexivity.
  - apply Z.mod_small. lia.
Qed.
Lemma topics_ok : one_scan_observer node_gmapping_topic /\ one_scan_observer node_1h_topic.
Proof.
  split; [exists [(SCorrection, true); (SStamped, true)], []|exists [(SCorrection, true)], []]; (split; [reflexivity|]); (split; [|auto]); cbn; intuition discriminate.
Qed.
Lemma dispatch_slam {D} {ops : DOps D} {M S} (dcos dsin : D -> D) (stamp : M -> Z) (slam : S -> M -> transform D -> outcome (S * list (pose D))) poses subs : scans subs = 1%nat ->
  forall n m t x, dispatch dcos dsin stamp slam poses subs n m t = Ok x -> exists y, slam (n_slam n) m t = Ok y.
Proof. intros Z n m t x E. assert (H := dispatch_one dcos dsin stamp slam poses subs Z n m t). destruct (slam (n_slam n) m t) as [y| | |]; [eauto|..]; destruct (H x E). Qed.
