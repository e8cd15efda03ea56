(** C40, C44 on the machine's numbers: floats in the message, doubles in the scan and in the table of sines. *)
From Coq Require Import Reals ZArith List Lia Lra Bool.
From Flocq Require Import Core IEEE754.BinarySingleNaN IEEE754.Binary IEEE754.Bits.
From Verif.Base Require Import Outcome Num F64Facts.
From Verif.Model Require Import MathUtils Geometry Sensor Trig LaserObserver Render LaserFloat.
From Verif.Spec Require Import LaserFloatSpec.
From Verif.Proofs Require Import RenderProofs LaserFloatProofs.
Import ListNotations.
Local Open Scope R_scope.

(** Every beam, in order, becomes what Spec/LaserFloatSpec.v says, whatever its range (NaN and infinities included); its
    angle is the one of the message up to 2^-20 radians, in spite of the rounding errors of the float subtraction and of up
    to 2^24 accumulated additions. *)
Theorem C40_machine_numbers : forall (m : laser_msg32) (skip_max : bool) (pts : list (scan_point F64)),
  plain_fan m -> msg2points32 m skip_max = Ok pts ->
  exists angles : list F64, length angles = length (l_ranges m) /\ pts = points_of m skip_max angles /\
    forall i a, nth_error angles i = Some a -> F_fin a = true /\ Rabs (F2R64 a - beam_angle m i) <= bpow radix2 (-20).
Proof.
  intros m skip pts H E. unfold msg2points32 in E. rewrite msg_points_spec in E.
  set (x := widen (b32_minus mode_NE (l_amin m) (l_inc m))) in *.
  exists (beam_angles (widen (l_inc m)) x (length (l_ranges m))).
  split; [unfold beam_angles; now rewrite map_length, seq_length|]. split.
  - destruct (are_equal_eps _ _ _); cbn [assert_ bind] in E; [|discriminate]. unfold points_of. congruence.
  - intros i a Ha. assert (Hi : (i < length (l_ranges m))%nat).
    { rewrite <- (seq_length (length (l_ranges m)) 0), <- (map_length (fun i => iter (widen (l_inc m)) x (S i))). apply nth_error_Some. unfold beam_angles in Ha. congruence. }
    unfold beam_angles in Ha. rewrite (map_nth_error _ i (seq 0 (length (l_ranges m))) (d := i)) in Ha.
    2:{ rewrite nth_error_nth' with (d := 0%nat) by (rewrite seq_length; exact Hi). now rewrite seq_nth by exact Hi. }
    assert (X : iter (widen (l_inc m)) x (S i) = a) by congruence. rewrite <- X.
    destruct (beam_angle_close m H (S i) ltac:(lia)) as [F B]. fold x in F, B. split; [exact F|].
    unfold beam_angle. rewrite S_INR in B. replace (INR i + 1 - 1) with (INR i) in B by ring. exact B.
Qed.
Print Assumptions C40_machine_numbers.

(** A message whose last beam misses the announced maximum by at most 1.64e-5 radians is converted, one that misses it by
    more than 1.86e-5 is refused (0.001 degree is about 1.745e-5 radians). *)
Theorem C40_machine_numbers_refusal : forall (m : laser_msg32) (skip_max : bool), plain_fan m ->
  let miss := Rabs (beam_angle m (length (l_ranges m)) - F2R32 (l_inc m) - F2R32 (l_amax m)) in
  (miss <= 164 / 10000000 -> exists pts, msg2points32 m skip_max = Ok pts) /\
  (186 / 10000000 < miss -> msg2points32 m skip_max = Abort).
Proof.
  intros m skip H miss. destruct (accepted_close m H) as [A1 A2]. unfold msg2points32. rewrite msg_points_spec.
  fold eps0. assert (X : miss = Rabs (F2R32 (l_amin m) + (INR (length (l_ranges m)) - 1) * F2R32 (l_inc m) - F2R32 (l_amax m))).
  { unfold miss, beam_angle. f_equal. ring. }
  split; intros Hm.
  - rewrite A2 by lra. cbn [assert_ bind]. eexists. reflexivity.
  - destruct (are_equal_eps _ _ _); [|reflexivity]. specialize (A1 eq_refl). lra.
Qed.
Print Assumptions C40_machine_numbers_refusal.

(** *** the table of sines *)
Lemma in_points (m : laser_msg32) skip angles s : In s (points_of m skip angles) ->
  exists i a, nth_error angles i = Some a /\ (i < length (l_ranges m))%nat /\ sp_polar s = true /\ sp_v s = a.
Proof.
  unfold points_of. intros H. apply in_flat_map in H. destruct H as [[a r] [H1 H2]]. cbn [fst snd] in H2.
  assert (P : sp_polar s = true /\ sp_v s = a).
  { unfold beam_point in H2. destruct (dlt (widen r) (widen (l_rmin m))); [destruct H2|].
    destruct (dle (widen (l_rmax m)) (widen r)); [destruct skip; [destruct H2|]|]; (destruct H2 as [<-|[]]; split; reflexivity). }
  assert (G : forall (A B : Type) (u : list A) (v : list B) x y, In (x, y) (combine u v) -> exists i, nth_error u i = Some x /\ (i < length v)%nat).
  { clear. intros A B. induction u as [|x0 u IH]; intros v x y Hin; [destruct Hin|]. destruct v as [|y0 v]; [destruct Hin|].
    destruct Hin as [E|Hin].
    - exists 0%nat. cbn [nth_error length]. split; [congruence|lia].
    - destruct (IH v x y Hin) as [i [I1 I2]]. exists (S i). cbn [nth_error length]. split; [exact I1|lia]. }
  destruct (G _ _ _ _ _ _ H1) as [i [I1 I2]]. exists i, a. tauto.
Qed.

Lemma accepted_real (m : laser_msg32) skip pts : plain_fan m -> msg2points32 m skip = Ok pts ->
  Rabs (F2R32 (l_amin m) + (INR (length (l_ranges m)) - 1) * F2R32 (l_inc m) - F2R32 (l_amax m)) <= 186 / 10000000.
Proof.
  intros H E. destruct (accepted_close m H) as [A1 _]. unfold msg2points32 in E. rewrite msg_points_spec in E. fold eps0 in E.
  destruct (are_equal_eps _ _ _); [|discriminate]. now apply A1.
Qed.

(** For every message that is converted (angles counterclockwise, the step at least 2^-14, about 0.0035 degree) the provider
    can be built, and for every point of the scan it looks up the entry of that point's own beam: no access outside the
    table, no neighbour's entry; for any libm. *)
Theorem C44_machine_numbers_own_entry : forall (dcos dsin : F64 -> F64) (m : laser_msg32) (skip_max : bool) (pts : list (scan_point F64)),
  plain_fan m -> bpow radix2 (-14) <= F2R32 (l_inc m) -> msg2points32 m skip_max = Ok pts ->
  exists (t : tcache F64) (enough : nat),
    (forall fuel, (enough <= fuel)%nat -> msg_trig_cache32 dcos dsin fuel m = Ok t) /\
    forall (s : scan_point F64) (base : F64) (datan2 : F64 -> F64 -> F64), In s pts ->
      let angle := sp_angle datan2 s in
      exists (i : nat) (a : F64), (i < length (l_ranges m))%nat /\
        F_fin angle = true /\ Rabs (F2R64 angle - beam_angle m i) <= bpow radix2 (-20) /\
        F_fin a = true /\ Rabs (F2R64 a - beam_angle m i) <= bpow radix2 (-25) /\
        tp_sin (tc_trig (tc_set_base dcos dsin t base)) angle = Ok (dadd (dmul (dsin base) (dcos a)) (dmul (dcos base) (dsin a))) /\
        tp_cos (tc_trig (tc_set_base dcos dsin t base)) angle = Ok (dsub (dmul (dcos base) (dcos a)) (dmul (dsin base) (dsin a))).
Proof.
  intros dcos dsin m skip pts H Hinc E.
  assert (Hacc := accepted_real m skip pts H E).
  destruct (cache_ok m H Hinc Hacc dcos dsin) as (n & N1 & N2 & N3 & N4).
  eexists. exists n. split; [exact N4|].
  intros s base datan2 Hs angle.
  destruct (C40_machine_numbers m skip pts H E) as (angles & L & EP & HA). rewrite EP in Hs.
  destruct (in_points m skip angles s Hs) as (i & a & I1 & I2 & I3 & I4).
  destruct (HA i a I1) as [Fa Ba].
  assert (EA : angle = a) by (unfold angle, sp_angle; now rewrite I3). rewrite EA.
  destruct (entry_close m H Hinc n N2 N3 i ltac:(lia)) as [Fe Ee].
  exists i, (iter (widen (l_inc m)) (widen (l_amin m)) i).
  split; [exact I2|]. split; [exact Fa|]. split; [exact Ba|]. split; [exact Fe|]. split; [exact Ee|].
  cbn [tp_sin tp_cos tc_trig]. unfold tc_sin_of, tc_cos_of.
  cbn [tc_set_base tc_sin tc_cos tc_sb tc_cb].
  pose proof (fun t tab g P1 P2 P3 => lookup_ok m H Hinc t tab g n i a P1 P2 P3 ltac:(lia) I2 Fa Ba) as LK.
  rewrite (LK _ _ dcos), (LK _ _ dsin) by reflexivity. split; reflexivity.
Qed.
Print Assumptions C44_machine_numbers_own_entry.

Lemma lipschitz (f f' : R -> R) : (forall x, derivable_pt_lim f x (f' x)) -> (forall x, Rabs (f' x) <= 1) ->
  forall x y, Rabs (f x - f y) <= Rabs (x - y).
Proof.
  intros D B x y. destruct (MVT_abs f f' y x) as [c [E _]]; [intros; apply D|]. rewrite E.
  rewrite <- (Rmult_1_l (Rabs (x - y))) at 2. apply Rmult_le_compat_r; [apply Rabs_pos|apply B].
Qed.
Lemma sin_near x y : Rabs (sin x - sin y) <= Rabs (x - y).
Proof. apply (lipschitz sin cos); [apply derivable_pt_lim_sin|]. intros z. apply Rabs_le. apply COS_bound. Qed.
Lemma cos_near x y : Rabs (cos x - cos y) <= Rabs (x - y).
Proof.
  apply (lipschitz cos (fun x => - sin x)); [apply derivable_pt_lim_cos|]. intros z. rewrite Rabs_Ropp. apply Rabs_le. apply SIN_bound.
Qed.

(** one product of two approximations *)
Lemma product_near (p q : F64) (P Q : R) : F_fin p = true -> F_fin q = true -> -1 <= P <= 1 -> -1 <= Q <= 1 ->
  Rabs (F2R64 p - P) <= bpow radix2 (-52) -> Rabs (F2R64 q - Q) <= bpow radix2 (-52) ->
  F_fin (dmul p q) = true /\ Rabs (F2R64 (dmul p q) - P * Q) <= 3 * bpow radix2 (-52).
Proof.
  intros Fp Fq HP HQ Ep Eq. set (u := bpow radix2 (-52)) in *.
  assert (U : 0 < u <= / 1000) by (unfold u; cbn; lra). apply Rabs_le_inv in Ep. apply Rabs_le_inv in Eq.
  set (x := F2R64 p) in *. set (y := F2R64 q) in *.
  assert (PQ : Rabs (x * y - P * Q) <= 2 * u + u * u).
  { replace (x * y - P * Q) with ((x - P) * Q + P * (y - Q) + (x - P) * (y - Q)) by ring.
    assert (A : Rabs ((x - P) * Q) <= u * 1) by (rewrite Rabs_mult; apply Rmult_le_compat; try apply Rabs_pos; apply Rabs_le; lra).
    assert (B : Rabs (P * (y - Q)) <= 1 * u) by (rewrite Rabs_mult; apply Rmult_le_compat; try apply Rabs_pos; apply Rabs_le; lra).
    assert (C : Rabs ((x - P) * (y - Q)) <= u * u) by (rewrite Rabs_mult; apply Rmult_le_compat; try apply Rabs_pos; apply Rabs_le; lra).
    eapply Rle_trans; [apply Rabs_triang|]. eapply Rle_trans; [apply Rplus_le_compat_r, Rabs_triang|]. lra. }
  assert (UU : u * u <= u * / 1000) by (apply Rmult_le_compat_l; lra).
  assert (PB : -1 <= P * Q <= 1) by (split; nra). apply Rabs_le_inv in PQ.
  assert (L : Rabs (x * y) < bpow radix2 1) by (apply Rabs_lt; change (bpow radix2 1) with 2; lra).
  destruct (F_mul_correct p q Fp Fq) as [V F]; [apply (small_no_ovf 1); [lia|lia|fold x y; lra]|].
  split; [exact F|]. fold x y in V. rewrite V. assert (R := rnd_err 1 _ ltac:(lia) L). change (1 - 53)%Z with (-52)%Z in R. fold u in R.
  apply Rabs_le_inv in R. apply Rabs_le. lra.
Qed.
Lemma sum_near (minus : bool) (p q : F64) (P Q : R) (u := bpow radix2 (-52)) : F_fin p = true -> F_fin q = true -> -1 <= P <= 1 -> -1 <= Q <= 1 ->
  Rabs (F2R64 p - P) <= 3 * u -> Rabs (F2R64 q - Q) <= 3 * u ->
  F_fin (if minus then dsub p q else dadd p q) = true /\
  Rabs (F2R64 (if minus then dsub p q else dadd p q) - (if minus then P - Q else P + Q)) <= 7 * u.
Proof.
  intros Fp Fq HP HQ Ep Eq. assert (U : 0 < u <= / 1000) by (unfold u; cbn; lra). apply Rabs_le_inv in Ep. apply Rabs_le_inv in Eq.
  set (x := F2R64 p) in *. set (y := F2R64 q) in *.
  destruct minus.
  - assert (L : Rabs (x - y) < bpow radix2 2) by (apply Rabs_lt; change (bpow radix2 2) with 4; lra).
    destruct (F_sub_correct p q Fp Fq) as [V F]; [apply (small_no_ovf 2); [lia|lia|fold x y; lra]|].
    split; [exact F|]. fold x y in V. rewrite V. assert (R := rnd_err 2 _ ltac:(lia) L).
    replace (/ 2 * bpow radix2 (2 - 53)) with u in R by (unfold u; cbn; lra). apply Rabs_le_inv in R. apply Rabs_le. lra.
  - assert (L : Rabs (x + y) < bpow radix2 2) by (apply Rabs_lt; change (bpow radix2 2) with 4; lra).
    destruct (F_add_correct p q Fp Fq) as [V F]; [apply (small_no_ovf 2); [lia|lia|fold x y; lra]|].
    split; [exact F|]. fold x y in V. rewrite V. assert (R := rnd_err 2 _ ltac:(lia) L).
    replace (/ 2 * bpow radix2 (2 - 53)) with u in R by (unfold u; cbn; lra). apply Rabs_le_inv in R. apply Rabs_le. lra.
Qed.

(** With an accurate libm: the sine and cosine the caching provider gives for a point are those of the base angle plus the
    angle of the point's beam according to the message, up to 2^-24; the direct provider's are up to 2^-19 (base angles
    within 32 radians). *)
Theorem C44_machine_numbers_accuracy : forall (dcos dsin : F64 -> F64) (m : laser_msg32) (skip_max : bool) (pts : list (scan_point F64)),
  accurate dsin sin -> accurate dcos cos ->
  plain_fan m -> bpow radix2 (-14) <= F2R32 (l_inc m) -> msg2points32 m skip_max = Ok pts ->
  exists (t : tcache F64) (enough : nat),
    (forall fuel, (enough <= fuel)%nat -> msg_trig_cache32 dcos dsin fuel m = Ok t) /\
    forall (s : scan_point F64) (base : F64) (datan2 : F64 -> F64 -> F64), In s pts -> F_fin base = true -> Rabs (F2R64 base) <= 32 ->
      let angle := sp_angle datan2 s in
      exists (i : nat) (cs cc ds dc : F64), (i < length (l_ranges m))%nat /\
        let exact := F2R64 base + beam_angle m i in
        tp_sin (tc_trig (tc_set_base dcos dsin t base)) angle = Ok cs /\ Rabs (F2R64 cs - sin exact) <= bpow radix2 (-24) /\
        tp_cos (tc_trig (tc_set_base dcos dsin t base)) angle = Ok cc /\ Rabs (F2R64 cc - cos exact) <= bpow radix2 (-24) /\
        tp_sin (raw_trig dcos dsin base) angle = Ok ds /\ Rabs (F2R64 ds - sin exact) <= bpow radix2 (-19) /\
        tp_cos (raw_trig dcos dsin base) angle = Ok dc /\ Rabs (F2R64 dc - cos exact) <= bpow radix2 (-19).
Proof.
  intros dcos dsin m skip pts As Ac H Hinc E.
  destruct (C44_machine_numbers_own_entry dcos dsin m skip pts H Hinc E) as (t & enough & T & HL).
  exists t, enough. split; [exact T|]. intros s base datan2 Hs Fb Bb angle.
  destruct (HL s base datan2 Hs) as (i & a & I & Fg & Eg & Fa & Ea & Es & Ec). fold angle in Fg, Eg, Es, Ec.
  exists i. do 4 eexists. split; [exact I|]. intros exact.
  split; [exact Es|]. assert (Hsb := As base Fb). assert (Hcb := Ac base Fb). assert (Hs' := As a Fa). assert (Hc := Ac a Fa).
  destruct Hsb as [Fsb Esb], Hcb as [Fcb Ecb], Hs' as [Fs Esn], Hc as [Fc Ecs].
  assert (Sa := SIN_bound (F2R64 a)). assert (Ca := COS_bound (F2R64 a)). assert (Sb := SIN_bound (F2R64 base)). assert (Cb := COS_bound (F2R64 base)).
  assert (PB : forall P Q, -1 <= P <= 1 -> -1 <= Q <= 1 -> -1 <= P * Q <= 1) by (intros; split; nra).
  assert (U : 7 * bpow radix2 (-52) + bpow radix2 (-25) <= bpow radix2 (-24)) by (cbn; lra).
  split; [|split; [exact Ec|split; [|]]].
  - destruct (product_near (dsin base) (dcos a) _ _ Fsb Fc Sb Ca Esb Ecs) as [F1 E1].
    destruct (product_near (dcos base) (dsin a) _ _ Fcb Fs Cb Sa Ecb Esn) as [F2 E2].
    destruct (sum_near false _ _ _ _ F1 F2 (PB _ _ Sb Ca) (PB _ _ Cb Sa) E1 E2) as [F3 E3]. cbv iota in E3. rewrite <- sin_plus in E3.
    assert (N := sin_near (F2R64 base + F2R64 a) exact). replace (F2R64 base + F2R64 a - exact) with (F2R64 a - beam_angle m i) in N by (unfold exact; ring).
    apply Rabs_le_inv in E3. assert (N' := Rle_trans _ _ _ N Ea). apply Rabs_le_inv in N'. apply Rabs_le. lra.
  - destruct (product_near (dcos base) (dcos a) _ _ Fcb Fc Cb Ca Ecb Ecs) as [F1 E1].
    destruct (product_near (dsin base) (dsin a) _ _ Fsb Fs Sb Sa Esb Esn) as [F2 E2].
    destruct (sum_near true _ _ _ _ F1 F2 (PB _ _ Cb Ca) (PB _ _ Sb Sa) E1 E2) as [F3 E3]. cbv iota in E3. rewrite <- cos_plus in E3.
    assert (N := cos_near (F2R64 base + F2R64 a) exact). replace (F2R64 base + F2R64 a - exact) with (F2R64 a - beam_angle m i) in N by (unfold exact; ring).
    apply Rabs_le_inv in E3. assert (N' := Rle_trans _ _ _ N Ea). apply Rabs_le_inv in N'. apply Rabs_le. lra.
  - cbn [tp_sin tp_cos raw_trig].
    assert (BA : Rabs (beam_angle m i) <= 23).
    { destruct H as (_ & _ & _ & B1 & _ & _ & B4 & _). unfold beam_angle. apply Rabs_le_inv in B1.
      assert (X : Rabs (INR i * F2R32 (l_inc m)) <= 16).
      { rewrite Rabs_mult, Rabs_pos_eq by apply pos_INR. eapply Rle_trans; [|exact B4]. apply Rmult_le_compat_r; [apply Rabs_pos|]. apply le_INR. lia. }
      apply Rabs_le_inv in X. apply Rabs_le. lra. }
    apply Rabs_le_inv in BA. assert (Bb' := Rabs_le_inv _ _ Bb). assert (Eg' := Rabs_le_inv _ _ Eg).
    assert (U20 : bpow radix2 (-20) <= 1) by (change 1 with (bpow radix2 0); apply bpow_le; lia).
    assert (L : Rabs (F2R64 base + F2R64 angle) < bpow radix2 6) by (apply Rabs_lt; change (bpow radix2 6) with 64; lra).
    destruct (F_add_correct base angle Fb Fg) as [V F]; [apply (small_no_ovf 6); [lia|lia|lra]|].
    assert (R := rnd_err 6 _ ltac:(lia) L). rewrite <- V in R. 
    assert (X : Rabs (F2R64 (dadd base angle) - exact) <= bpow radix2 (-20) + bpow radix2 (-48)).
    { replace (/ 2 * bpow radix2 (6 - 53)) with (bpow radix2 (-48)) in R by (cbn; lra). apply Rabs_le_inv in R.
      unfold exact. apply Rabs_le. lra. }
    assert (U' : bpow radix2 (-52) + (bpow radix2 (-20) + bpow radix2 (-48)) <= bpow radix2 (-19)) by (cbn; lra).
    destruct (As _ F) as [_ Q1]. destruct (Ac _ F) as [_ Q2].
    assert (N1 := Rle_trans _ _ _ (sin_near (F2R64 (dadd base angle)) exact) X).
    assert (N2 := Rle_trans _ _ _ (cos_near (F2R64 (dadd base angle)) exact) X).
    apply Rabs_le_inv in Q1. apply Rabs_le_inv in Q2. apply Rabs_le_inv in N1. apply Rabs_le_inv in N2.
    split; [reflexivity|]. split; [apply Rabs_le; lra|]. split; [reflexivity|]. apply Rabs_le; lra.
Qed.
Print Assumptions C44_machine_numbers_accuracy.

(** A case: the scanner of the tests' bags, 1040 beams from -2.268928 by 0.004363323 to 2.2645607 radians (floats); the
    hypotheses hold and the message is converted. *)
Definition case_msg : laser_msg32 :=
  mkMsg32 (f64_to_f32 (dlit (-2268928) 1000000)) (f64_to_f32 (dlit 22645635 10000000)) (f64_to_f32 (dlit 4363323 1000000000))
    (f64_to_f32 (dlit 23 1000)) (int_to_f32 60) (repeat (int_to_f32 5) 1040).
Example C40_C44_machine_numbers_case :
  plain_fan case_msg /\ bpow radix2 (-14) <= F2R32 (l_inc case_msg) /\ exists pts, msg2points32 case_msg true = Ok pts /\ length pts = 1040%nat.
Proof.
  assert (B : forall (x : F32) (n : Z), fin32 x -> (Z.abs n <= 2 ^ 53)%Z -> F_fin (dlit n (2 ^ 30) : F64) = true ->
              dle (dabs (widen x)) (dlit n (2 ^ 30)) = true -> Rabs (F2R32 x) <= IZR n * bpow radix2 (-30)).
  { intros x n Fx Hn Fn L. destruct (widen_correct x Fx) as [V F]. destruct (F_dabs_correct (widen x)) as [Va Fa]. rewrite F in Fa.
    apply (F_le_fin _ _ Fa Fn) in L. rewrite Va, V, (dyadic n Hn Fn) in L. exact L. }
  assert (F1 : fin32 (l_amin case_msg)) by (vm_compute; reflexivity).
  assert (F2 : fin32 (l_amax case_msg)) by (vm_compute; reflexivity).
  assert (F3 : fin32 (l_inc case_msg)) by (vm_compute; reflexivity).
  assert (B1 := B (l_amin case_msg) (7 * 2 ^ 30)%Z F1 ltac:(lia) ltac:(vm_compute; reflexivity) ltac:(vm_compute; reflexivity)).
  assert (B2 := B (l_amax case_msg) (7 * 2 ^ 30)%Z F2 ltac:(lia) ltac:(vm_compute; reflexivity) ltac:(vm_compute; reflexivity)).
  assert (B3 := B (l_inc case_msg) (2 ^ 23)%Z F3 ltac:(lia) ltac:(vm_compute; reflexivity) ltac:(vm_compute; reflexivity)).
  change (bpow radix2 (-30)) with (/ 1073741824) in *. change (IZR (7 * 2 ^ 30)) with 7516192768 in *. change (IZR (2 ^ 23)) with 8388608 in *.
  assert (LN : length (l_ranges case_msg) = 1040%nat) by reflexivity.
  split; [|split].
  - unfold plain_fan. rewrite LN. split; [exact F1|]. split; [exact F2|]. split; [exact F3|]. split; [lra|]. split; [lra|]. split; [lra|].
    split; [|lia]. rewrite INR_IZR_INZ. change (IZR (Z.of_nat 1040)) with 1040. lra.
  - destruct (widen_correct _ F3) as [V F].
    assert (Fn : F_fin (dlit (2 ^ 16) (2 ^ 30) : F64) = true) by (vm_compute; reflexivity).
    assert (L : dle (dlit (2 ^ 16) (2 ^ 30)) (widen (l_inc case_msg)) = true) by (vm_compute; reflexivity).
    apply (F_le_fin _ _ Fn F) in L. rewrite V, (dyadic (2 ^ 16) ltac:(lia) Fn) in L.
    change (bpow radix2 (-30)) with (/ 1073741824) in L. change (IZR (2 ^ 16)) with 65536 in L. change (bpow radix2 (-14)) with (/ 16384). lra.
  - assert (K : match msg2points32 case_msg true with Ok l => Nat.eqb (length l) 1040 | _ => false end = true) by (vm_compute; reflexivity).
    destruct (msg2points32 case_msg true) as [l| | |]; try discriminate. exists l. split; [reflexivity|]. now apply Nat.eqb_eq.
Qed.
