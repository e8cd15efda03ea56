(** The pose graph a history should leave. *)
From Coq Require Import Reals ZArith List Bool.
From Verif.Base Require Import Outcome Num.
From Verif.Model Require Import MathUtils Geometry Sensor World PoseGraph.
Import ListNotations.

Section PoseGraphSpec.
  Context {D S M SM : Type} {ops : DOps D}.
  (** the accumulated odometry has reached the limit in a component *)
  Definition reached (limit acc : pose D) : Prop :=
    dlt (dabs (px acc)) (dabs (px limit)) = false \/ dlt (dabs (py acc)) (dabs (py limit)) = false \/ dlt (dabs (pth acc)) (dabs (pth limit)) = false.

  (** which scans become nodes, and where: those at which the odometry since the last node (or the start) has reached the limit *)
  Inductive kept (limit : pose D) : pose D -> list (tr_scan D S) -> list (pose D) -> list (tr_scan D S * pose D) -> Prop :=
  | kept_nil acc : kept limit acc [] [] []
  | kept_node acc s p scans poses ks : reached limit (pose_add acc (ts_delta s)) -> kept limit delta_zero scans poses ks ->
      kept limit acc (s :: scans) (p :: poses) ((s, p) :: ks)
  | kept_skip acc s p scans poses ks : ~ reached limit (pose_add acc (ts_delta s)) -> kept limit (pose_add acc (ts_delta s)) scans poses ks ->
      kept limit acc (s :: scans) (p :: poses) ks.

  (** the poses after each scan: odometry, and for all but the first scan the answer of the matcher on a map of the previous scan
      only, seen from where the odometry says it was taken *)
  Inductive poses_of (sm_process : SM -> S -> pose D -> M -> outcome (D * pose D * SM)) (adder : M -> pose D -> S -> D -> D -> outcome M) (m0 : M) (margin : D)
      : SM -> option (tr_scan D S) -> pose D -> list (tr_scan D S) -> list (pose D) -> Prop :=
  | po_nil sm last p : poses_of sm_process adder m0 margin sm last p [] []
  | po_first sm p s scans poses :
      poses_of sm_process adder m0 margin sm (Some s) (pose_add p (ts_delta s)) scans poses ->
      poses_of sm_process adder m0 margin sm None p (s :: scans) (pose_add p (ts_delta s) :: poses)
  | po_next sm last p s m score d sm' scans poses :
      adder m0 (delta_opp (ts_delta s)) (ts_scan last) (ts_quality last) margin = Ok m ->
      sm_process sm (ts_scan s) delta_zero m = Ok (score, d, sm') ->
      poses_of sm_process adder m0 margin sm' (Some s) (pose_add (pose_add p (ts_delta s)) d) scans poses ->
      poses_of sm_process adder m0 margin sm (Some last) p (s :: scans) (pose_add (pose_add p (ts_delta s)) d :: poses).

  (** the scans of a history *)
  Definition history_scans (h : list (wevent D S)) : list (tr_scan D S) := flat_map (fun e => match e with EScan s => [s] | _ => [] end) h.

  (** a chain: node [i] has its scan and pose; edge [i] leads from node [i + 1] to node [i] and holds the difference of their poses;
      a node lists the edge to its predecessor, then the one from its successor *)
  Definition chain_graph (g : pgraph D S) (ks : list (tr_scan D S * pose D)) : Prop :=
    length (pg_nodes g) = length ks /\ length (pg_edges g) = pred (length ks) /\
    (forall i s p, nth_error ks i = Some (s, p) -> exists n, nth_error (pg_nodes g) i = Some n /\ nd_scan n = s /\ nd_pose n = p /\
       nd_edges n = (if Nat.eqb i 0 then [] else [pred i]) ++ (if Nat.eqb (Datatypes.S i) (length ks) then [] else [i])) /\
    (forall i s p s' p', nth_error ks i = Some (s, p) -> nth_error ks (Datatypes.S i) = Some (s', p') ->
       nth_error (pg_edges g) i = Some (mkEdge (pose_sub p' p) (Datatypes.S i) i)).
End PoseGraphSpec.
