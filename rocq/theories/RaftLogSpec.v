(** * What a raft log is. *)
From Coq Require Import NArith ZArith List Bool.
From Verif Require Import RaftLogModel.
Import ListNotations.
Open Scope Z_scope.

(** A log: the index of its first entry, its entries, and an index up to which it is known to
    be on the device. *)
Record log := Log { l_first : Z; l_ents : list entry; l_flushed : Z }.
Definition l_next (s : log) : Z := l_first s + Z.of_nat (length (l_ents s)).
Definition l_at (s : log) (i : Z) : option entry :=
  if i <? l_first s then None else nth_error (l_ents s) (Z.to_nat (i - l_first s)).
Definition l_slice (s : log) (a b : Z) : list entry :=
  firstn (Z.to_nat (b - a)) (skipn (Z.to_nat (a - l_first s)) (l_ents s)).

(** The operations and queries of the log store interface. *)
Inductive op :=
| Append (e : entry) | EndBatch (start cnt : Z) | Flush | WriteAt (i : Z) (e : entry) | Compact (i : Z) | Purge
| Durable | Restart (i : Z)
| AskEntry (i : Z) | AskTerm (i : Z) | AskLast | AskNext | AskStart | AskEntries (a b hint : Z).
(** What is seen of them. *)
Inductive obs := Done | Idx (i : Z) | Ent (e : entry) | NoEntry | TermIs (t : N) | Ents (l : list entry) | Failed.

Definition all_flushed (s : log) : log := Log (l_first s) (l_ents s) (l_next s - 1).
Definition spec_step (s : log) (o : op) : log * obs :=
  match o with
  | Append e => (Log (l_first s) (l_ents s ++ [e]) (l_flushed s), Idx (l_next s))
  | EndBatch _ _ | Flush => (all_flushed s, Done)
  | WriteAt i e => (all_flushed (Log (l_first s) (firstn (Z.to_nat (i - l_first s)) (l_ents s) ++ [e]) 0), Done)
  | Compact i =>
    if i <? l_first s then (s, Done)
    else (Log (i + 1) (skipn (Z.to_nat (i + 1 - l_first s)) (l_ents s)) (Z.max i (l_next s - 1)), Done)
  | Purge => (Log (l_next s) [] (l_next s - 1), Done)
  | Durable => (s, Done)
  | Restart i => (all_flushed (Log (l_first s) (firstn (Z.to_nat (i + 1 - l_first s)) (l_ents s)) 0), Done)
  | AskEntry i => (s, match l_at s i with Some e => Ent e | None => Failed end)
  | AskTerm i => (s, match l_at s i with Some e => TermIs (e_term e) | None => Failed end)
  | AskLast => (s, match l_at s (l_next s - 1) with Some e => Ent e | None => NoEntry end)
  | AskNext => (s, Idx (l_next s))
  | AskStart => (s, Idx (l_first s))
  | AskEntries a b hint =>
    (s, Ents (l_slice s a (if hint <? 0 then a else if hint =? 0 then b else Z.min b (a + hint))))
  end.
(** When they may be called.  An overwrite is only made when all entries are on the device,
    the last entry is asked for when there is one or nothing was ever written, and entries are
    listed once they are on the device. *)
Definition legal (s : log) (o : op) : Prop :=
  match o with
  | Append _ | Flush | Purge | Durable | AskNext | AskStart | Compact _ => True
  | EndBatch start cnt => start + cnt - 1 < l_next s
  | WriteAt i _ => l_first s <= i <= l_next s /\ l_flushed s = l_next s - 1
  | Restart i => Z.max (l_flushed s) (l_first s - 1) <= i < l_next s
  | AskEntry i | AskTerm i => l_first s <= i < l_next s
  | AskLast => l_ents s <> [] \/ l_next s = 1
  | AskEntries a b _ => l_first s <= a <= b /\ b - 1 <= l_flushed s
  end.

Fixpoint legal_run (s : log) (l : list op) : Prop :=
  match l with [] => True | o :: t => legal s o /\ legal_run (fst (spec_step s o)) t end.
Fixpoint spec_run (s : log) (l : list op) : log * list obs :=
  match l with
  | [] => (s, [])
  | o :: t => let '(s1, v) := spec_step s o in let '(s2, vs) := spec_run s1 t in (s2, v :: vs)
  end.
Definition new_log : log := Log 1 [] 0.

(** The same on the model. *)
Definition seen (a : answer) : obs :=
  match a with Found e => Ent e | Dummy => NoEntry | Null | Thrown => Failed end.
Definition step (r : rls) (o : op) : option (rls * obs) :=
  match o with
  | Append e => let '(r', i) := append r e in Some (r', Idx i)
  | EndBatch a n => Some (end_batch r a n, Done)
  | Flush => Some (rflush r, Done)
  | WriteAt i e => match write_at r i e with Some r' => Some (r', Done) | None => None end
  | Compact i => Some (compact r i, Done)
  | Purge => Some (purge_all r, Done)
  | Durable => Some (fst (last_durable r), Done)
  | Restart i => Some (restart r (to_store i), Done)
  | AskEntry i => let '(r', a) := entry_at r i in Some (r', seen a)
  | AskTerm i => let '(r', a) := term_at r i in
                 match a with Term t => Some (r', TermIs t) | TThrown => Some (r', Failed) | TCrash => None end
  | AskLast => let '(r', a) := last_entry r in Some (r', seen a)
  | AskNext => Some (r, Idx (next_slot r))
  | AskStart => Some (r, Idx (start_index r))
  | AskEntries a b hint => Some (r, Ents (log_entries_ext r a b hint))
  end.
Fixpoint run (r : rls) (l : list op) : option (rls * list obs) :=
  match l with
  | [] => Some (r, [])
  | o :: t => match step r o with
              | None => None
              | Some (r1, v) => match run r1 t with None => None | Some (r2, vs) => Some (r2, v :: vs) end
              end
  end.
