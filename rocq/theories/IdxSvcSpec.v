(** What callers of the registry of index tables rely on. *)
From Coq Require Import List Arith ZArith Bool Permutation.
From Verif Require Import IdxSvcModel.
Import ListNotations.

(** From the calls alone: the tables that exist (created, not destroyed), those
    that are registered, those that are being dropped (removed, not yet
    destroyed), and all that were ever created. *)
Record view := View { existing : list tbl; registered : list tbl; leaving : list tbl; ever : list tbl }.

Definition watch (v : view) (o : op) : view :=
  match o with
  | Create t | CreateAt t => View (existing v ++ [t]) (registered v) (leaving v) (t :: ever v)
  | Add t => View (existing v) (t :: registered v) (leaving v) (ever v)
  | Remove t => View (existing v) (remove tbl_eq_dec t (registered v)) (t :: leaving v) (ever v)
  | Destroy t => View (remove tbl_eq_dec t (existing v)) (registered v) (remove tbl_eq_dec t (leaving v)) (ever v)
  | Restart _ => View (existing v) (existing v) [] (ever v)
  end.

Definition seen (l : list op) : view := fold_left watch l (View [] [] [] []).

(** A uuid is used once. *)
Definition fresh (v : view) (t : tbl) : Prop := forall t', In t' (ever v) -> uuid t' <> uuid t.

(** How callers are to behave.  A given ordinal is free and no table is created
    while another is being dropped; a table is added once, while it exists; it is
    removed before it is destroyed. *)
Definition polite (v : view) (s : state) (o : op) : Prop :=
  match o with
  | Create t => fresh v t /\ leaving v = []
  | CreateAt t => fresh v t /\ leaving v = [] /\ reserved s (ord t) = false
  | Add t => In t (existing v) /\ ~ In t (registered v) /\ ~ In t (leaving v)
  | Remove t => In t (registered v)
  | Destroy t => In t (existing v) /\ ~ In t (registered v)
  | Restart _ => True
  end.

(** Runs of polite callers. *)
Inductive pruns : list op -> state -> Prop :=
| pruns_nil : pruns [] init
| pruns_snoc l s o s' : pruns l s -> env s o -> polite (seen l) s o -> step s o = Some s' ->
    pruns (l ++ [o]) s'.

(** Runs of any callers. *)
Inductive runs : list op -> state -> Prop :=
| runs_nil : runs [] init
| runs_snoc l s o s' : runs l s -> env s o -> step s o = Some s' -> runs (l ++ [o]) s'.

(** Sum of the sizes of the registered tables. *)
Fixpoint total (l : list tbl) : Z :=
  match l with [] => 0%Z | t :: l => (size t + total l)%Z end.
