(** * What starts of a server mean for its drives, virtual devices and chunks. *)
From Coq Require Import List Arith.
From Verif Require Import DevMgrModel.
Import ListNotations.

(** A drive is in use: a start would take it as one of the system's. *)
Definition used (D : disks) (d : nat) : Prop := exists b, valid (D d) = Some b.
(** It has this id. *)
Definition known (D : disks) (d id : nat) : Prop := exists b, valid (D d) = Some b /\ pid b = id.
(** Chunk [c] of virtual device [v] is on drive [d], which is in use. *)
Definition held (D : disks) (c d v : nat) : Prop := used D d /\ In (c, v) (chk (D d)).

(** [base] are the drives the system was first started with. *)
Definition pools (c : cfg) (base : list nat) : Prop :=
  base <> [] /\ forall v, v < nv c -> pool c (vt c v) base <> [].
(** A start is given every drive in use, none twice, the first ones first; and a crash during
    the first start leaves all drives committed or none. *)
Definition calm (c : cfg) (base : list nat) (s : st) (e : ev) : Prop :=
  match e with
  | Start dl u num k =>
    NoDup dl /\ (exists ext, dl = base ++ ext) /\ (forall d, used (dk s) d -> In d dl) /\
    ((forall d, ~ used (dk s) d) ->
     dl = base /\ ((exists d, used (dk (step c s e)) d) -> forall d, In d base -> used (dk (step c s e)) d))
  | _ => True
  end.
Inductive reach (c : cfg) (ok : st -> ev -> Prop) : st -> Prop :=
| reach_init D : (forall d, ~ used D d) -> reach c ok (St D None)
| reach_step s e : reach c ok s -> ok s e -> reach c ok (step c s e).
