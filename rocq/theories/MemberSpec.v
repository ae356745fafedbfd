(** What replacing a member should do to a group: the four configurations it
    may pass through, and what a majority is. *)
From Coq Require Import ZArith NArith List Bool Arith.
From Verif Require Import MemberModel.
Import ListNotations.
Local Open Scope N_scope.

(** A server: id, learner flag, priority. *)
Notation server := (N * bool * Z)%type.
Definition server_of (m : member) : server := (m_id m, m_learner m, m_prio m).
Definition servers (c : list member) : list server := map server_of c.

Section Replace.
Context (out inn : N) (prio : Z).

(** The old member votes no more; the new one is there; the old one is gone. *)
Definition demoted (l : list server) : list server :=
  map (fun s => let '(i, b, p) := s in if i =? out then (i, true, p) else s) l.
Definition joined (l : list server) : list server := demoted l ++ [(inn, false, prio)].
Definition replaced (l : list server) : list server :=
  filter (fun s => negb (fst (fst s) =? out)) l ++ [(inn, false, prio)].
End Replace.

(** Voters and their majority. *)
Definition voter (m : member) : bool := negb (m_learner m).
Definition majority (good : member -> bool) (c : list member) : Prop :=
  (length (filter voter c) < 2 * length (filter good (filter voter c)))%nat.

(** What happens to a group while one replacement is tried: attempts to start it
    on some replica, periodic checks on some replica, and logs that grow. *)
Inductive call :=
| Start (me : N) (q : N) (v : env)
| Check (me : N) (v : env)
| Progress (lsn : N -> N) (commit start : N).

Section Run.
Context (laggy : N) (id : list N) (out inn : N).

Definition progress (g : grp) (lsn : N -> N) (commit start : N) : grp :=
  Grp (map (fun m => Mem (m_id m) (m_learner m) (m_prio m) (lsn (m_id m))) (g_cfg g))
    (g_task g) (g_quorum g) commit start.

Definition step (g : grp) (c : call) : grp :=
  match c with
  | Start me q v => fst (start_replace laggy me g id out inn q v)
  | Check me v => fst (monitor laggy me g v)
  | Progress f c s => progress g f c s
  end.
Definition run (g : grp) (l : list call) : grp := fold_left step l g.
End Run.
