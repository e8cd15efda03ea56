(** Model of src/core/particle_filter.h.  Particles are held by shared_ptr: the model keeps a heap of particle objects and the
    filter's vector of pointers (heap indices), so that aliasing between particles is visible. *)
From Coq Require Import ZArith List Bool.
From Verif.Base Require Import Outcome Num.
From Verif.Model Require Import Histogram.
Import ListNotations.
Local Open Scope Z_scope.
Local Open Scope outcome_scope.

Section ParticleFilter.
  Context {D P : Type} {ops : DOps D}.
  Variables (weight : P -> D) (set_weight : D -> P -> P).     (* particle_filter.h:15-16 *)
  Variable sample : P -> P.                                    (* particle_filter.h:18, virtual *)

  Record pf := mkPF { pf_heap : list P; pf_ptrs : list nat }.
  Definition deref (h : list P) (p : nat) : outcome P := match nth_error h p with Some x => Ok x | None => UB end.
  (** the objects the filter's pointers refer to, in order *)
  Fixpoint objects (h : list P) (ptrs : list nat) : outcome (list P) :=
    match ptrs with
    | [] => Ok []
    | p :: ptrs => x <- deref h p ;; l <- objects h ptrs ;; Ok (x :: l)
    end.

  (** particle_filter.h:74-81; [create] is what the factory makes, one call per particle *)
  Fixpoint pf_create (create : nat -> P) (n i : nat) (w : D) : list P :=
    match n with O => [] | S n => set_weight w (create i) :: pf_create create n (S i) w end.
  Definition pf_new (create : nat -> P) (n : nat) : pf :=
    mkPF (pf_create create n 0 (ddiv (dofZ 1) (dofZ (Z.of_nat n)))) (seq 0 n).

  (** particle_filter.h:107-108 *)
  Fixpoint total_weight (ws : list D) (acc : D) : D :=
    match ws with [] => acc | w :: ws => total_weight ws (dadd acc w) end.
  (** particle_filter.h:109 *)
  Fixpoint scale_weights (h : list P) (ptrs : list nat) (total : D) : outcome (list P) :=
    match ptrs with
    | [] => Ok h
    | p :: ptrs =>
        x <- deref h p ;;
        scale_weights (upd h p (fun x => set_weight (ddiv (weight x) total) x)) ptrs total
    end.
  (** particle_filter.h:106-110 *)
  Definition normalize_weights (f : pf) : outcome pf :=
    xs <- objects (pf_heap f) (pf_ptrs f) ;;
    h <- scale_weights (pf_heap f) (pf_ptrs f) (total_weight (map weight xs) (dofZ 0)) ;;
    Ok (mkPF h (pf_ptrs f)).

  (** particle_filter.h:34-43 [UniformResamling::resampling_is_required] *)
  Fixpoint sum_squares (ws : list D) (acc : D) : D :=
    match ws with [] => acc | w :: ws => sum_squares ws (dadd acc (dmul w w)) end.
  Definition resampling_is_required (ws : list D) : bool :=
    dlt (dmul (ddiv (dofZ 1) (sum_squares ws (dofZ 0))) (dofZ 2)) (dofZ (Z.of_nat (length ws))).

  (** particle_filter.h:55-63: the particle drawn for one sample of U(0, 1); the vector of indices is zero-initialised
      (line 49), so a sample not below the accumulated weights leaves 0 *)
  Fixpoint draw (ws : list D) (j : nat) (total : D) (s : D) : nat :=
    match ws with
    | [] => O
    | w :: ws => let total := dadd total w in if dlt s total then j else draw ws (S j) total s
    end.
  (** particle_filter.h:45-66; [samples i] is the i-th value of [uniform_distr(engine)] *)
  Definition resample (ws : list D) (samples : nat -> D) : list nat :=
    map (fun i => draw ws 0 (dofZ 0) (samples i)) (seq 0 (length ws)).

  (** particle_filter.h:91-101 ([seen] is new_part_inds, a set of indices); returns the heap and the new pointers *)
  Fixpoint take_particles (h : list P) (old : list nat) (inds : list nat) (seen : list nat) : outcome (list P * list nat) :=
    match inds with
    | [] => Ok (h, [])
    | i :: inds =>
        match nth_error old i with
        | None => UB
        | Some p =>
            if existsb (Nat.eqb i) seen then
              x <- deref h p ;;
              '(h', ptrs) <- take_particles (h ++ [sample x]) old inds seen ;;
              Ok (h', length h :: ptrs)
            else
              '(h', ptrs) <- take_particles h old inds (i :: seen) ;;
              Ok (h', p :: ptrs)
        end
    end.
  (** particle_filter.h:83-104 *)
  Definition pf_try_resample (f : pf) (samples : nat -> D) : outcome (pf * bool) :=
    xs <- objects (pf_heap f) (pf_ptrs f) ;;
    if negb (resampling_is_required (map weight xs)) then Ok (f, false)
    else
      '(h, ptrs) <- take_particles (pf_heap f) (pf_ptrs f) (resample (map weight xs) samples) [] ;;
      f <- normalize_weights (mkPF h ptrs) ;;
      Ok (f, true).

  (** particle_filter.h:112-119: index of the heaviest particle ([None]: no particle, the code dereferences null) *)
  Fixpoint heaviest (ws : list D) (i : nat) (best : option (nat * D)) : option nat :=
    match ws with
    | [] => match best with Some (b, _) => Some b | None => None end
    | w :: ws =>
        match best with
        | Some (b, bw) => if dlt w bw then heaviest ws (S i) best else heaviest ws (S i) (Some (i, w))
        | None => heaviest ws (S i) (Some (i, w))
        end
    end.
  Definition heaviest_ptr (f : pf) : outcome nat :=
    xs <- objects (pf_heap f) (pf_ptrs f) ;;
    match heaviest (map weight xs) 0 None with
    | None => UB
    | Some i => match nth_error (pf_ptrs f) i with Some p => Ok p | None => UB end
    end.
End ParticleFilter.
Arguments pf P : clear implicits.
