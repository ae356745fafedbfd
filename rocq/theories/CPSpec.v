(** * What the checkpoint manager promises. *)
From Coq Require Import ZArith List Bool.
From Verif Require Import CPModel.
Import ListNotations.
Open Scope Z_scope.

(** A caller of a trigger has a name of its own. *)
Definition called (w : nat) (l : list event) : Prop := exists c, In (ECall w c) l.
(** [calm]: when a checkpoint gets ready to be flushed, no thread that dropped its last
    reference earlier has still to look at its status. *)
Definition calm (s : mgr) : Prop := forall c w, m_trig s = Some (TEntered c w) -> ~ In c (m_exits s).
Definition allowed (s : mgr) (a : act) : Prop :=
  match a with
  | ATrig w _ _ => ~ called w (m_log s)
  | ATPrepare => calm s
  | _ => True
  end.

Inductive reached (last : Z) : mgr -> Prop :=
| reached_boot : reached last (boot last)
| reached_step s a s' : reached last s -> allowed s a -> step s a = Ok s' -> reached last s'.

(** The same with any interleaving of the two steps of leaving a section. *)
Inductive reached_any (last : Z) : mgr -> Prop :=
| any_boot : reached_any last (boot last)
| any_step s a s' : reached_any last s -> step s a = Ok s' -> reached_any last s'.

(** Inside checkpoint [c]: a section is open, or a thread is about to open one. *)
Definition inside (c : Z) (s : mgr) : Prop := In c (m_in s) \/ In c (m_rcu s).

(** What reaches the consumers and the superblock. *)
Definition core (l : list event) : list event := filter (fun e => match e with EStart _ | ESaved _ => true | _ => false end) l.
(** [k] checkpoints from [first] on, one after the other. *)
Fixpoint rounds (first : Z) (k : nat) : list event :=
  match k with O => [] | S k => EStart first :: ESaved first :: rounds (first + 1) k end.

(** What can follow. *)
Inductive leads : mgr -> mgr -> Prop :=
| leads_refl s : leads s s
| leads_step s a s1 s2 : allowed s a -> step s a = Ok s1 -> leads s1 s2 -> leads s s2.
(** Steps that threads already inside take by themselves: nobody enters, nobody triggers. *)
Definition internal (a : act) : Prop := match a with AEnter1 | ARef _ | ATrig _ _ _ | AShut => False | _ => True end.
Inductive settles : mgr -> mgr -> Prop :=
| settles_refl s : settles s s
| settles_step s a s1 s2 : internal a -> allowed s a -> step s a = Ok s1 -> settles s1 s2 -> settles s s2.
