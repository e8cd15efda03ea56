(** Model of src/slams/graph/{pose_graph_map,graph_slam_world}.h (its target is commented out in CMakeLists.txt:35; the class is complete). *)
From Coq Require Import ZArith List Bool.
From Verif.Base Require Import Outcome Num.
From Verif.Model Require Import MathUtils Geometry Sensor World.
Import ListNotations.
Local Open Scope Z_scope.
Local Open Scope outcome_scope.

Section PoseGraph.
  Context {D S M SM : Type} {ops : DOps D}.

  (** pose_graph_map.h:19-25, 27-31: shared pointers to nodes and edges are positions in the vectors of the graph (all nodes and
      edges are in them) *)
  Record gedge := mkEdge { ed_delta : pose D; ed_from : nat; ed_to : nat }.
  Record gnode := mkNode { nd_scan : tr_scan D S; nd_pose : pose D; nd_edges : list nat }.
  (** pose_graph_map.h:127-131 *)
  Record pgraph := mkGraph { pg_current : option nat; pg_nodes : list gnode; pg_edges : list gedge }.
  (** pose_graph_map.h:45 *)
  Definition pg_new : pgraph := mkGraph None [] [].

  Fixpoint upd_node (l : list gnode) (i : nat) (f : gnode -> gnode) : list gnode :=
    match l, i with
    | [], _ => []
    | n :: l, O => f n :: l
    | n :: l, Datatypes.S i => n :: upd_node l i f
    end.
  Definition push_edge (e : nat) (n : gnode) : gnode := mkNode (nd_scan n) (nd_pose n) (nd_edges n ++ [e]).
  (** pose_graph_map.h:118-124 *)
  Definition pg_add_edge (g : pgraph) (n1 n2 : nat) : outcome pgraph :=
    match nth_error (pg_nodes g) n1, nth_error (pg_nodes g) n2 with
    | Some a, Some b =>
        let e := length (pg_edges g) in
        let nodes := upd_node (upd_node (pg_nodes g) n1 (push_edge e)) n2 (push_edge e) in
        Ok (mkGraph (pg_current g) nodes (pg_edges g ++ [mkEdge (pose_sub (nd_pose a) (nd_pose b)) n1 n2]))
    | _, _ => UB
    end.
  (** pose_graph_map.h:47-69, 77-80: [close_loop] is [return false], so the look-up distance is not used *)
  Definition pg_add_node (g : pgraph) (scan : tr_scan D S) (p : pose D) : outcome pgraph :=
    let n := length (pg_nodes g) in
    let g' := mkGraph (pg_current g) (pg_nodes g ++ [mkNode scan p []]) (pg_edges g) in
    match pg_current g with
    | None => Ok (mkGraph (Some n) (pg_nodes g') (pg_edges g'))
    | Some c =>
        g'' <- pg_add_edge g' n c ;;
        Ok (mkGraph (Some n) (pg_nodes g'') (pg_edges g''))
    end.

  (** graph_slam_world.h:13-31: the limit of the oracle and its accumulated delta *)
  Variable limit : pose D.
  Definition nco_required (acc d : pose D) : bool * pose D :=
    let acc := pose_add acc d in
    if is_abs_less acc limit then (false, acc) else (true, delta_zero).

  (** graph_slam_world.h:34-81: the matcher (never reset), the adder, the new map of line 48-50 and the margin are parameters *)
  Variables (sm_process : SM -> S -> pose D -> M -> outcome (D * pose D * SM)) (adder : M -> pose D -> S -> D -> D -> outcome M) (m0 : M) (margin : D).
  Record gworld := mkGW { gw_pose : pose D; gw_last : option (tr_scan D S); gw_acc : pose D; gw_graph : pgraph; gw_sm : SM }.
  (** world.h:67-69 and graph_slam_world.h:39-41 *)
  Definition gw_new (sm : SM) : gworld := mkGW delta_zero None delta_zero pg_new sm.
  (** world.h:75-77 *)
  Definition gw_update (w : gworld) (d : pose D) : gworld := mkGW (pose_add (gw_pose w) d) (gw_last w) (gw_acc w) (gw_graph w) (gw_sm w).
  (** graph_slam_world.h:43-57 *)
  Definition gw_estimate (sm : SM) (last curr : tr_scan D S) : outcome (pose D * SM) :=
    m <- adder m0 (delta_opp (ts_delta curr)) (ts_scan last) (ts_quality last) margin ;;
    '(_, d, sm) <- sm_process sm (ts_scan curr) delta_zero m ;;
    Ok (d, sm).
  (** graph_slam_world.h:59-72 *)
  Definition gw_observe (w : gworld) (s : tr_scan D S) : outcome gworld :=
    w <- (match gw_last w with
          | None => Ok w
          | Some last => '(d, sm) <- gw_estimate (gw_sm w) last s ;; Ok (gw_update (mkGW (gw_pose w) (gw_last w) (gw_acc w) (gw_graph w) sm) d)
          end) ;;
    let '(required, acc) := nco_required (gw_acc w) (ts_delta s) in
    if required then
      g <- pg_add_node (gw_graph w) s (gw_pose w) ;; Ok (mkGW (gw_pose w) (Some s) acc g (gw_sm w))
    else Ok (mkGW (gw_pose w) (Some s) acc (gw_graph w) (gw_sm w)).
  (** laser_scan_grid_world.h:26-32 over this world *)
  Definition gw_run : wobservers -> gworld -> list (wevent D S) -> outcome (wobservers * gworld * list (wnote D pgraph)) :=
    world_run (fun w d => Ok (gw_update w d)) gw_observe (fun w => Ok (gw_pose w)) (fun w => Ok (gw_graph w)).
End PoseGraph.
Arguments pgraph D S : clear implicits.
Arguments gnode D S : clear implicits.
Arguments gedge D : clear implicits.
Arguments gworld D S SM : clear implicits.
