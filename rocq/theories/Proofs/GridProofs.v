(** world_to_cells returns a cell path (C03), for any double arithmetic with consistent directions. *)
From Coq Require Import ZArith List Lia Bool FinFun.
From Verif.Base Require Import Outcome Num.
From Verif.Model Require Import MathUtils Geometry Grid.
From Verif.Spec Require Import GeometrySpec.
From Verif.Proofs Require Import ListFacts BresenhamProofs.
Import ListNotations.
Local Open Scope Z_scope.

(** a digital line is a cell path *)
Lemma half_bound_box a b t u :
  0 <= t <= a -> 0 <= b -> 2 * Z.abs (a * u - b * t) <= a -> 0 < a -> 0 <= u <= b.
Proof.
  intros Ht Hb H Ha.
  assert (H1 : 2 * (a * u - b * t) <= a) by lia.
  assert (H2 : - a <= 2 * (a * u - b * t)) by lia.
  assert (Hbt : 0 <= b * t <= b * a) by nia.
  split.
  - destruct (Z_lt_le_dec u 0) as [Hu|]; [|assumption].
    assert (a * u <= a * (-1)) by nia. lia.
  - destruct (Z_lt_le_dec b u) as [Hu|]; [|assumption].
    assert (a * (b + 1) <= a * u) by nia. lia.
Qed.

Lemma digital_line_path a b l : digital_line a b l -> cell_path a b l.
Proof.
  destruct a as [bx by_], b as [ex ey].
  intros [HL [HS [HE [HC HI]]]]. unfold chebyshev in HL; cbn [fst snd] in HL.
  assert (Hlen : forall i p, nth_error l i = Some p -> Z.of_nat i < Z.of_nat (length l)).
  { intros i p H. apply inj_lt. apply nth_error_Some. congruence. }
  split; [exact HS|]. split; [exact HE|]. split; [exact HC|]. split; [|split].
  - intros [px py] Hin. apply In_nth_error in Hin. destruct Hin as [i Hi].
    specialize (Hlen _ _ Hi). destruct (HI _ _ Hi) as [HM HW].
    unfold moved_along_longer, within_half_cell in *; unfold in_box; cbn [fst snd] in *.
    destruct (Z.ltb_spec (Z.abs (ex - bx)) (Z.abs (ey - by_))) as [Hc|Hc].
    + assert (Hb : 0 <= Z.sgn (ex - bx) * (px - bx) <= Z.abs (ex - bx)).
      { destruct (Z.eq_dec (ex - bx) 0) as [E|E].
        - rewrite E in *. cbn. 
          assert (Z.abs ((ey - by_) * (px - bx)) = Z.abs (ey - by_) * Z.abs (px - bx)) by apply Z.abs_mul.
          nia.
        - apply (half_bound_box (Z.abs (ey - by_)) (Z.abs (ex - bx)) (Z.of_nat i)
                   (Z.sgn (ex - bx) * (px - bx))); [lia|lia| |lia].
          etransitivity; [|exact HW]. apply Z.eq_le_incl. f_equal. rewrite HM.
          destruct (Z_lt_le_dec 0 (ey - by_)), (Z_lt_le_dec 0 (ex - bx));
            rewrite ?(Z.sgn_pos (ey - by_)), ?(Z.sgn_neg (ey - by_)),
                    ?(Z.sgn_pos (ex - bx)), ?(Z.sgn_neg (ex - bx)) by lia;
            rewrite ?(Z.abs_eq (ey - by_)), ?(Z.abs_neq (ey - by_)),
                    ?(Z.abs_eq (ex - bx)), ?(Z.abs_neq (ex - bx)) by lia;
            first [ f_equal; ring | rewrite <- Z.abs_opp; f_equal; ring ]. }
      assert (Hp : ex - bx = 0 -> px = bx).
      { intros E. rewrite E in HW.
        assert (Z.abs ((ey - by_) * (px - bx)) = Z.abs (ey - by_) * Z.abs (px - bx)) by apply Z.abs_mul.
        assert (2 * Z.abs ((ey - by_) * (px - bx)) <= Z.abs (ey - by_)) by lia.
        nia. }
      split.
      * destruct (Z_lt_le_dec 0 (ex - bx)) as [L|L].
        -- rewrite Z.sgn_pos in Hb by lia. lia.
        -- destruct (Z.eq_dec (ex - bx) 0) as [E|E]; [specialize (Hp E); lia|].
           rewrite Z.sgn_neg in Hb by lia. lia.
      * destruct (Z_lt_le_dec 0 (ey - by_)) as [L|L].
        -- rewrite Z.sgn_pos in HM by lia. lia.
        -- rewrite Z.sgn_neg in HM by lia. lia.
    + destruct (Z.eq_dec (ex - bx) 0) as [E|E].
      * assert (ey - by_ = 0) by lia. rewrite E, Z.sgn_0 in HM.
        rewrite H in *. rewrite E in *. assert (i = 0%nat) by lia. subst i.
        unfold starts_with in HS. rewrite HS in Hi. inversion Hi; subst. lia.
      * assert (Hb : 0 <= Z.sgn (ey - by_) * (py - by_) <= Z.abs (ey - by_) \/
                     (ey - by_ = 0 /\ py = by_)).
        { destruct (Z.eq_dec (ey - by_) 0) as [E'|E'].
          - right. split; [exact E'|]. rewrite E' in HW.
            assert (Z.abs ((ex - bx) * (py - by_)) = Z.abs (ex - bx) * Z.abs (py - by_)) by apply Z.abs_mul.
            assert (2 * Z.abs ((ex - bx) * (py - by_)) <= Z.abs (ex - bx)) by lia.
            nia.
          - left. apply (half_bound_box (Z.abs (ex - bx)) (Z.abs (ey - by_)) (Z.of_nat i)
                   (Z.sgn (ey - by_) * (py - by_))); [lia|lia| |lia].
            etransitivity; [|exact HW]. apply Z.eq_le_incl. f_equal. rewrite HM.
            destruct (Z_lt_le_dec 0 (ey - by_)), (Z_lt_le_dec 0 (ex - bx));
            rewrite ?(Z.sgn_pos (ey - by_)), ?(Z.sgn_neg (ey - by_)),
                    ?(Z.sgn_pos (ex - bx)), ?(Z.sgn_neg (ex - bx)) by lia;
            rewrite ?(Z.abs_eq (ey - by_)), ?(Z.abs_neq (ey - by_)),
                    ?(Z.abs_eq (ex - bx)), ?(Z.abs_neq (ex - bx)) by lia;
            first [ f_equal; ring | rewrite <- Z.abs_opp; f_equal; ring ]. }
        split.
        -- destruct (Z_lt_le_dec 0 (ex - bx)) as [L|L].
           ++ rewrite Z.sgn_pos in HM by lia. lia.
           ++ rewrite Z.sgn_neg in HM by lia. lia.
        -- destruct Hb as [Hb|[Hb1 Hb2]]; [|lia].
           destruct (Z_lt_le_dec 0 (ey - by_)) as [L|L].
           ++ rewrite Z.sgn_pos in Hb by lia. lia.
           ++ destruct (Z.eq_dec (ey - by_) 0) as [E'|E'].
              ** assert (Hw : Z.abs ((ex - bx) * (py - by_)) = Z.abs (ex - bx) * Z.abs (py - by_)) by apply Z.abs_mul.
                 rewrite E' in HW.
                 assert (2 * Z.abs ((ex - bx) * (py - by_)) <= Z.abs (ex - bx)) by lia.
                 assert (py = by_) by nia. lia.
              ** rewrite Z.sgn_neg in Hb by lia. lia.
  - apply NoDup_nth_error. intros i j Hi Heq.
    destruct (nth_error l i) as [p|] eqn:Ep; [|apply nth_error_None in Ep; lia].
    symmetry in Heq. assert (Hj := Hlen _ _ Heq). assert (Hi' := Hlen _ _ Ep).
    destruct (HI _ _ Ep) as [M1 _]. destruct (HI _ _ Heq) as [M2 _].
    unfold moved_along_longer in *; cbn [fst snd] in *.
    destruct (Z.ltb_spec (Z.abs (ex - bx)) (Z.abs (ey - by_))) as [Hc|Hc].
    + destruct (Z_lt_le_dec 0 (ey - by_)) as [L|L].
      * rewrite Z.sgn_pos in M1, M2 by lia. lia.
      * rewrite Z.sgn_neg in M1, M2 by lia. lia.
    + destruct (Z.eq_dec (ex - bx) 0) as [E|E]; [lia|].
      destruct (Z_lt_le_dec 0 (ex - bx)) as [L|L].
      * rewrite Z.sgn_pos in M1, M2 by lia. lia.
      * rewrite Z.sgn_neg in M1, M2 by lia. lia.
  - cbn [fst snd]. lia.
Qed.

(** ** The monotone walk *)
Section Walk.
  Variables (bx by_ ix iy : Z).
  Hypothesis Hix : ix = 1 \/ ix = -1.
  Hypothesis Hiy : iy = 1 \/ iy = -1.
  Let f (ij : Z * Z) : coord := (bx + ix * fst ij, by_ + iy * snd ij).

  (** reversed list of visited offsets, ending at [(i, j)] after [n] pushes *)
  Inductive walk : list (Z * Z) -> Z -> Z -> Z -> Prop :=
  | walk_1 : walk [(0, 0)] 0 0 1
  | walk_S l i j n i' j' :
      walk l i j n -> (i <= i' <= i + 1) -> (j <= j' <= j + 1) -> i + j < i' + j' ->
      walk ((i', j') :: l) i' j' (n + 1).

  Lemma walk_facts l i j n : walk l i j n ->
    Z.of_nat (length l) = n /\ n <= i + j + 1 /\ 0 <= i /\ 0 <= j /\
    (forall p, In p l -> 0 <= fst p <= i /\ 0 <= snd p <= j /\ fst p + snd p <= i + j) /\
    NoDup l /\ (exists l', l = l' ++ [(0, 0)]) /\ (exists l', l = (i, j) :: l') /\
    (forall p, In p (tl l) -> fst p + snd p < i + j).
  Proof.
    induction 1 as [|l i j n i' j' Hw IH Hi Hj Hij].
    - cbn [length tl]. split; [lia|]. split; [lia|]. split; [lia|]. split; [lia|].
      split; [|split; [|split; [|split]]].
      + intros p [<-|[]]; cbn; lia.
      + constructor; [intros []|constructor].
      + exists []; reflexivity.
      + exists []; reflexivity.
      + intros p [].
    - destruct IH as [I1 [I2 [I3 [I4 [I5 [I6 [I7 [I8 I9]]]]]]]].
      assert (Hall : forall p, In p l -> fst p + snd p < i' + j').
      { intros p Hp. destruct (I5 p Hp) as [_ [_ ?]]. lia. }
      cbn [length tl]. rewrite Nat2Z.inj_succ. split; [lia|]. split; [lia|]. split; [lia|]. split; [lia|].
      split; [|split; [|split; [|split]]].
      + intros p [<-|Hp]; cbn [fst snd].
        * lia.
        * destruct (I5 p Hp) as [? [? ?]]. lia.
      + constructor; [|exact I6]. intros Hin. specialize (Hall _ Hin). cbn in Hall. lia.
      + destruct I7 as [l' ->]. exists ((i', j') :: l'). reflexivity.
      + exists l; reflexivity.
      + exact Hall.
  Qed.

  Lemma walk_chain l i j n : walk l i j n -> chain neighbours8 (rev (map f l)).
  Proof.
    induction 1 as [|l i j n i' j' Hw IH Hi Hj Hij].
    - apply chain_single.
    - cbn [map rev].
      destruct (walk_facts _ _ _ _ Hw) as [_ [_ [_ [_ [_ [_ [_ [[l' El] _]]]]]]]].
      assert (Hlast : nth_error (rev (map f l)) (length l - 1) = Some (f (i, j))).
      { rewrite El. cbn [map rev length]. rewrite nth_error_app2 by (rewrite rev_length, map_length; lia).
        rewrite rev_length, map_length. replace (S (length l') - 1 - length l')%nat with 0%nat by lia.
        reflexivity. }
      intros k a b Ha Hb.
      assert (Hlen : length (rev (map f l)) = length l) by (rewrite rev_length, map_length; reflexivity).
      assert (Hl0 : (0 < length l)%nat) by (rewrite El; cbn; lia).
      destruct (Nat.eq_dec (S k) (length l)) as [E|NE].
      + rewrite nth_error_app1 in Ha by lia.
        rewrite nth_error_app2 in Hb by lia.
        replace (length l - 1)%nat with k in Hlast by lia. rewrite Hlast in Ha.
        rewrite Hlen in Hb. replace (S k - length l)%nat with 0%nat in Hb by lia.
        cbn in Hb. inversion Ha; inversion Hb; subst. unfold neighbours8, f; cbn [fst snd].
        destruct Hix as [-> | ->], Hiy as [-> | ->]; lia.
      + assert (Hk : (S k < length l)%nat).
        { match type of Hb with nth_error ?L _ = _ =>
            assert (HL : (S k < length L)%nat) by (apply nth_error_Some; intros HN; pose proof (eq_trans (eq_sym Hb) HN); discriminate) end.
          rewrite app_length in HL; cbn in HL. lia. }
        rewrite nth_error_app1 in Ha by lia. rewrite nth_error_app1 in Hb by lia.
        eapply IH; eauto.
  Qed.

  Lemma walk_path l A B n : walk l A B n -> cell_path (bx, by_) (bx + ix * A, by_ + iy * B) (rev (map f l)).
  Proof.
    intros Hw. assert (HC := walk_chain _ _ _ _ Hw).
    destruct (walk_facts _ _ _ _ Hw) as [F1 [F2 [F3 [F4 [F5 [F6 [[l1 E1] [[l2 E2] F9]]]]]]]].
    split; [|split; [|split; [|split; [|split]]]].
    - unfold starts_with. rewrite E1, map_app, rev_app_distr. cbn. unfold f; cbn. f_equal. f_equal; ring.
    - rewrite E2. cbn [map rev]. apply ends_with_app.
    - exact HC.
    - intros p Hp. apply in_rev in Hp. apply in_map_iff in Hp. destruct Hp as [ij [<- Hin]].
      destruct (F5 _ Hin) as [? [? ?]]. unfold in_box, f; cbn [fst snd].
      destruct Hix as [-> | ->], Hiy as [-> | ->]; lia.
    - apply NoDup_rev. apply Injective_map_NoDup; [|exact F6].
      intros [i1 j1] [i2 j2]; unfold f; cbn. intros Heq. inversion Heq.
      f_equal; destruct Hix as [-> | ->], Hiy as [-> | ->]; lia.
    - rewrite rev_length, map_length. cbn [fst snd].
      destruct Hix as [-> | ->], Hiy as [-> | ->]; lia.
  Qed.

  Context {D : Type} {ops : DOps D}.
  Variables (A B : Z).
  Hypothesis HA : 0 <= A.
  Hypothesis HB : 0 <= B.
  Let end_ : coord := (bx + ix * A, by_ + iy * B).

  Lemma w2c_loop_spec : forall fuel exi eyi i j e n acc,
    walk ((i, j) :: acc) i j (n + 1) -> 0 <= n <= A + B + 1 ->
    (Z.to_nat (A + B + 2 - n) <= fuel)%nat ->
    exists l, w2c_loop fuel (bx, by_) end_ (A + B + 1) ix iy exi eyi (f (i, j)) e n (map f acc) = Ok l /\
              cell_path (bx, by_) end_ l.
  Proof.
    induction fuel as [|fuel IH]; intros exi eyi i j e n acc Hw Hn Hf; [lia|].
    cbn [w2c_loop]. 
    destruct (walk_facts _ _ _ _ Hw) as [F1 [F2 [F3 [F4 _]]]].
    destruct (coord_eqb (f (i, j)) end_) eqn:Ee.
    - unfold coord_eqb, f, end_, cx, cy in Ee; cbn [fst snd] in Ee.
      apply andb_true_iff in Ee. destruct Ee as [E1 E2]. apply Z.eqb_eq in E1, E2.
      assert (i = A) by (destruct Hix as [-> | ->]; lia).
      assert (j = B) by (destruct Hiy as [-> | ->]; lia). subst i j.
      eexists; split; [reflexivity|].
      apply (walk_path _ _ _ _ Hw).
    - destruct (Z.ltb_spec (A + B + 1) (n + 1)) as [Hov|Hov].
      + destruct (discrete_segment_line (bx, by_) end_) as [l [Hl HD]].
        exists l. split; [exact Hl|]. now apply digital_line_path.
      + assert (Hstep : forall i' j' e', (i <= i' <= i + 1) -> (j <= j' <= j + 1) -> i + j < i' + j' ->
          exists l, w2c_loop fuel (bx, by_) end_ (A + B + 1) ix iy exi eyi (f (i', j')) e' (n + 1)
                      (f (i, j) :: map f acc) = Ok l /\ cell_path (bx, by_) end_ l).
        { intros i' j' e' H1 H2 H3.
          apply (IH exi eyi i' j' e' (n + 1) ((i, j) :: acc)); [|lia|lia].
          eapply walk_S; eauto. }
        assert (Hfx : forall e', exists l, w2c_loop fuel (bx, by_) end_ (A + B + 1) ix iy exi eyi
                (cx (f (i, j)) + ix, cy (f (i, j))) e' (n + 1) (f (i, j) :: map f acc) = Ok l /\
                cell_path (bx, by_) end_ l).
        { intros e'. replace (cx (f (i, j)) + ix, cy (f (i, j))) with (f (i + 1, j))
            by (unfold f, cx, cy; cbn [fst snd]; f_equal; ring). apply Hstep; lia. }
        assert (Hfy : forall e', exists l, w2c_loop fuel (bx, by_) end_ (A + B + 1) ix iy exi eyi
                (cx (f (i, j)), cy (f (i, j)) + iy) e' (n + 1) (f (i, j) :: map f acc) = Ok l /\
                cell_path (bx, by_) end_ l).
        { intros e'. replace (cx (f (i, j)), cy (f (i, j)) + iy) with (f (i, j + 1))
            by (unfold f, cx, cy; cbn [fst snd]; f_equal; ring). apply Hstep; lia. }
        destruct (are_equal _ _).
        * destruct (_ =? cx end_); [apply Hfy|]. destruct (_ =? cy end_); [apply Hfx|].
          replace (cx (f (i, j)) + ix, cy (f (i, j)) + iy) with (f (i + 1, j + 1))
            by (unfold f, cx, cy; cbn [fst snd]; f_equal; ring). apply Hstep; lia.
        * destruct (dlt _ _); [apply Hfx | apply Hfy].
  Qed.
End Walk.

(** The sign test on the world delta agrees with the order of the end cells. *)
Definition dir_consistent {D} {ops : DOps D} (a b : D) (ca cb : Z) : Prop :=
  if dlt (dofZ 0) (dsub b a) then ca <= cb else cb <= ca.

Theorem world_to_cells_path {D} {ops : DOps D} (scale : D) (s : segment D) (b e : coord) :
  world_to_cell scale (sbeg s) = Ok b -> world_to_cell scale (send s) = Ok e ->
  dir_consistent (ptx (sbeg s)) (ptx (send s)) (fst b) (fst e) ->
  dir_consistent (pty (sbeg s)) (pty (send s)) (snd b) (snd e) ->
  exists l, world_to_cells scale s = Ok l /\ cell_path b e l.
Proof.
  intros Hb He Hx Hy. unfold world_to_cells. rewrite Hb, He. cbn [bind].
  destruct b as [bx by_], e as [ex ey]. unfold cx, cy; cbn [fst snd] in *.
  unfold dir_consistent in Hx, Hy.
  revert Hx Hy.
  generalize (dlt (dofZ 0) (dsub (ptx (send s)) (ptx (sbeg s)))).
  generalize (dlt (dofZ 0) (dsub (pty (send s)) (pty (sbeg s)))).
  intros dy dx Hx Hy.
  set (ix := if dx then 1 else -1). set (iy := if dy then 1 else -1).
  assert (Hix : ix = 1 \/ ix = -1) by (unfold ix; destruct dx; auto).
  assert (Hiy : iy = 1 \/ iy = -1) by (unfold iy; destruct dy; auto).
  assert (Ex : ex = bx + ix * Z.abs (ex - bx)) by (unfold ix; destruct dx; lia).
  assert (Ey : ey = by_ + iy * Z.abs (ey - by_)) by (unfold iy; destruct dy; lia).
  clearbody ix iy. clear Hx Hy.
  match goal with |- exists l, w2c_loop ?fu _ _ _ _ _ ?exi ?eyi _ ?e0 _ _ = _ /\ _ =>
    destruct (w2c_loop_spec bx by_ ix iy Hix Hiy (Z.abs (ex - bx)) (Z.abs (ey - by_))
      fu exi eyi 0 0 e0 0 []) as [l [Hl HP]]
  end.
  - constructor.
  - lia.
  - lia.
  - rewrite <- Ex, <- Ey in Hl, HP. cbn [fst snd map] in Hl. rewrite !Z.mul_0_r, !Z.add_0_r in Hl.
    eauto.
Qed.

(** ** Rasterised rectangles (C04) *)
Definition zrange (a b : Z) : list Z := map (fun k => a + Z.of_nat k) (seq 0 (Z.to_nat (b - a + 1))).

Lemma in_zrange a b x : In x (zrange a b) <-> a <= x <= b.
Proof.
  unfold zrange. rewrite in_map_iff. split.
  - intros [k [<- Hk]]. apply in_seq in Hk. lia.
  - intros H. exists (Z.to_nat (x - a)). split; [lia|]. apply in_seq. lia.
Qed.
Lemma NoDup_zrange a b : NoDup (zrange a b).
Proof.
  unfold zrange. apply Injective_map_NoDup; [|apply seq_NoDup].
  intros x y H. lia.
Qed.
Lemma zrange_cons a b : a <= b -> zrange a b = a :: zrange (a + 1) b.
Proof.
  intros H. unfold zrange. replace (Z.to_nat (b - a + 1)) with (S (Z.to_nat (b - (a + 1) + 1))) by lia.
  cbn [seq map]. f_equal; [lia|]. rewrite <- seq_shift, map_map. apply map_ext. intros k. lia.
Qed.
Lemma zrange_nil a b : b < a -> zrange a b = [].
Proof. intros H. unfold zrange. replace (Z.to_nat (b - a + 1)) with 0%nat by lia. reflexivity. Qed.

Definition box_list (lx ly rx ry : Z) : list coord :=
  flat_map (fun x => map (fun y => (x, y)) (zrange ly ry)) (zrange lx rx).

Lemma raster_column lb rt : forall fuel k x y,
  (cy rt - y + 1 = Z.of_nat k) -> x <= cx rt -> cy lb <= cy rt -> y <= cy rt ->
  raster_to_vector (k + fuel) (mkRaster lb rt x y) =
  bind (raster_to_vector fuel (mkRaster lb rt (x + 1) (cy lb)))
       (fun l => Ok (map (fun y => (x, y)) (zrange y (cy rt)) ++ l)).
Proof.
  intros fuel k. induction k as [|k IH]; intros x y Hk Hx Hlr Hy; [lia|].
  cbn [Nat.add raster_to_vector]. unfold raster_has_next, raster_next; cbn [r_x r_y r_rt r_lb].
  destruct (Z.leb_spec x (cx rt)) as [_|]; [|lia]. destruct (Z.leb_spec y (cy rt)) as [_|]; [|lia]. cbn [andb].
  rewrite (zrange_cons y (cy rt)) by lia.
  destruct (Z.ltb_spec (cy rt) (y + 1)) as [H1|H1].
  - assert (k = 0)%nat by lia. subst k. cbn [Nat.add].
    rewrite (zrange_nil (y + 1)) by lia. cbn [map app].
    destruct (raster_to_vector fuel _); reflexivity.
  - rewrite IH by lia. destruct (raster_to_vector fuel _); cbn [bind]; try reflexivity.
Qed.

Lemma raster_rows lb rt : cy lb <= cy rt ->
  forall k x, cx rt - x + 1 = Z.of_nat k ->
  forall fuel, (k * Z.to_nat (cy rt - cy lb + 1) <= fuel)%nat ->
  raster_to_vector fuel (mkRaster lb rt x (cy lb)) =
  Ok (flat_map (fun x => map (fun y => (x, y)) (zrange (cy lb) (cy rt))) (zrange x (cx rt))).
Proof.
  intros Hlr. induction k as [|k IH]; intros x Hk fuel Hf.
  - rewrite (zrange_nil x (cx rt)) by lia. cbn [flat_map].
    destruct fuel; cbn [raster_to_vector]; unfold raster_has_next; cbn [r_x r_rt];
      destruct (Z.leb_spec x (cx rt)); try lia; reflexivity.
  - set (h := Z.to_nat (cy rt - cy lb + 1)) in *.
    assert (Hf' : (h + k * h <= fuel)%nat) by exact Hf. clear Hf.
    replace fuel with (h + (fuel - h))%nat by lia.
    rewrite raster_column by (unfold h; lia).
    assert (Hf2 : (k * h <= fuel - h)%nat) by (clear -Hf'; clearbody h; generalize dependent (k * h)%nat; intros; lia).
    rewrite (IH (x + 1) ltac:(lia) (fuel - h)%nat Hf2). cbn [bind]. rewrite (zrange_cons x (cx rt)) by lia. reflexivity.
Qed.

Lemma raster_enumerates lb rt : cx lb <= cx rt -> cy lb <= cy rt ->
  forall fuel, (Z.to_nat (cx rt - cx lb + 1) * Z.to_nat (cy rt - cy lb + 1) <= fuel)%nat ->
  raster_to_vector fuel (raster_start lb rt) = Ok (box_list (cx lb) (cy lb) (cx rt) (cy rt)).
Proof.
  intros Hx Hy fuel Hf. apply (raster_rows lb rt Hy (Z.to_nat (cx rt - cx lb + 1))); [lia|exact Hf].
Qed.

Lemma raster_empty lb rt fuel : cx rt < cx lb \/ cy rt < cy lb ->
  raster_to_vector fuel (raster_start lb rt) = Ok [].
Proof.
  intros H. destruct fuel; cbn [raster_to_vector]; unfold raster_has_next, raster_start; cbn [r_x r_y r_rt];
  destruct (Z.leb_spec (cx lb) (cx rt)), (Z.leb_spec (cy lb) (cy rt)); try lia; reflexivity.
Qed.

Lemma NoDup_app' {A} (l1 l2 : list A) :
  NoDup l1 -> NoDup l2 -> (forall x, In x l1 -> ~ In x l2) -> NoDup (l1 ++ l2).
Proof.
  induction l1 as [|a l1 IH]; intros H1 H2 Hd; cbn; [assumption|].
  inversion H1 as [|? ? Hn Hn']; subst. constructor.
  - rewrite in_app_iff. intros [?|?]; [auto|]. apply (Hd a); cbn; auto.
  - apply IH; auto. intros x Hx. apply Hd. now right.
Qed.

Lemma NoDup_flat_map_pairs (ys : list Z) (xs : list Z) :
  NoDup xs -> NoDup ys -> NoDup (flat_map (fun x => map (fun y => (x, y)) ys) xs).
Proof.
  intros Hx Hy. induction Hx as [|x xs Hn Hx IH]; cbn; [constructor|].
  apply NoDup_app'; auto.
  - apply Injective_map_NoDup; auto. intros a b H; congruence.
  - intros [a b] H1 H2. apply in_map_iff in H1. destruct H1 as [y [E _]]. inversion E; subst.
    apply in_flat_map in H2. destruct H2 as [x' [Hx' H2]]. apply in_map_iff in H2.
    destruct H2 as [y' [E' _]]. inversion E'; subst. contradiction.
Qed.

Lemma box_list_spec lb rt : enumerates_box lb rt (box_list (fst lb) (snd lb) (fst rt) (snd rt)).
Proof.
  split.
  - apply NoDup_flat_map_pairs; apply NoDup_zrange.
  - intros [x y]; cbn [fst snd]. unfold box_list. rewrite in_flat_map. split.
    + intros [x' [Hx Hy]]. apply in_map_iff in Hy. destruct Hy as [y' [E Hy]]. inversion E; subst.
      apply in_zrange in Hx, Hy. lia.
    + intros [Hx Hy]. exists x. split; [now apply in_zrange|]. apply in_map_iff.
      exists y. split; [reflexivity|]. now apply in_zrange.
Qed.

(** enough fuel: number of cells of the box *)
Definition box_cells (lb rt : coord) : nat :=
  (Z.to_nat (cx rt - cx lb + 1) * Z.to_nat (cy rt - cy lb + 1))%nat.

Theorem raster_to_vector_spec lb rt fuel : (box_cells lb rt <= fuel)%nat ->
  exists l, raster_to_vector fuel (raster_start lb rt) = Ok l /\ enumerates_box lb rt l.
Proof.
  intros Hf. destruct (Z_lt_le_dec (cx rt) (cx lb)) as [Hx|Hx];
    [|destruct (Z_lt_le_dec (cy rt) (cy lb)) as [Hy|Hy]].
  - exists []. split; [apply raster_empty; auto|]. split; [constructor|].
    intros p. cbn. unfold cx, cy in *. lia.
  - exists []. split; [apply raster_empty; auto|]. split; [constructor|].
    intros p. cbn. unfold cx, cy in *. lia.
  - eexists. split; [apply raster_enumerates; auto|]. apply box_list_spec.
Qed.
