(** What users of the replication service expect of the groups, in terms of what they
    were told ([obs], newest first), and of what is on disk. *)
From stdpp Require Import gmap.
From Verif Require Import GrpLifeModel.
Open Scope N_scope.

(** The group exists for its users: its creation returned, or a start came up with it and a listener, and
    nobody left it since; with its log device and the raft state saved last. *)
Fixpoint live (h : list obs) (g : N) : option (N * N) :=
  match h with
  | [] => None
  | OCreated g' ld :: h => if decide (g' = g) then Some (ld, 0) else live h g
  | OSaved g' v :: h => if decide (g' = g) then (match live h g with Some (ld, _) => Some (ld, v) | None => None end) else live h g
  | OLeft g' :: h => if decide (g' = g) then None else live h g
  | OStarted up :: h => match up !! g with Some (ld, true, v) => Some (ld, v) | _ => live h g end
  | _ :: h => live h g
  end.

(** Somebody asked for the group after it was left last. *)
Fixpoint asked (h : list obs) (g : N) : bool :=
  match h with
  | [] => false
  | OBegin g' :: h => if decide (g' = g) then true else asked h g
  | OLeft g' :: h => if decide (g' = g) then false else asked h g
  | _ :: h => asked h g
  end.

(** on_destroy was called since the group was asked for last. *)
Fixpoint told (h : list obs) (g : N) : bool :=
  match h with
  | [] => false
  | OBegin g' :: h => if decide (g' = g) then false else told h g
  | OTold g' :: h => if decide (g' = g) then true else told h g
  | _ :: h => told h g
  end.

(** Left and not asked for again. *)
Fixpoint left_ (h : list obs) (g : N) : bool :=
  match h with
  | [] => false
  | OBegin g' :: h => if decide (g' = g) then false else left_ h g
  | OLeft g' :: h => if decide (g' = g) then true else left_ h g
  | _ :: h => left_ h g
  end.

Definition new_ids (h : list obs) : list N :=
  omap (fun o => match o with ONew x => Some x | _ => None end) h.

(** A start that came after [h] came up with the right groups. *)
Definition start_ok (h : list obs) (up : gmap N (N * bool * N)) : Prop :=
  (forall g ld v, live h g = Some (ld, v) -> up !! g = Some (ld, true, v))
  /\ (forall g x, up !! g = Some x -> asked h g = true)
  /\ (forall g g' ld b v b' v', up !! g = Some (ld, b, v) -> up !! g' = Some (ld, b', v') -> g = g').

Fixpoint starts_ok (h : list obs) : Prop :=
  match h with
  | [] => True
  | OStarted up :: h => start_ok h up /\ starts_ok h
  | _ :: h => starts_ok h
  end.

(** Nothing on disk is without an owner and nobody shares. *)
Definition no_leak (s : st) : Prop :=
  (forall x, x ∈ devs s <-> exists g r, gs s !! g = Some r /\ g_ld r = x)
  /\ (forall g, is_Some (rds s !! g) <-> is_Some (gs s !! g))
  /\ (forall g, is_Some (cfgs s !! g) -> is_Some (gs s !! g))
  /\ (forall g g' r r', gs s !! g = Some r -> gs s !! g' = Some r' -> g_ld r = g_ld r' -> g = g').

(** No group is collected before its leave() has returned. *)
Definition no_early (l : list ev) : Prop := forall g, EGcEarly g ∉ l.
