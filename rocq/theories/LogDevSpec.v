(** * What the log device promises to the users of its stores.
    A store is two plain lists: what it has now, and what a crash would leave. *)
From Coq Require Import NArith ZArith List Bool.
From Verif Require Import LogDevModel.
Import ListNotations.
Open Scope Z_scope.

(** [m_from], [m_items]: first lsn and data the store has now, lsn by lsn.
    [p_from], [p_items]: the same, after a crash. *)
Record glog := GL { p_from : Z; p_items : list data; m_from : Z; m_items : list data }.
(** The open stores, and the appends whose completion has not come yet, in order. *)
Record ghost := Ghost { g_live : list (N * glog); g_pend : list (N * data) }.

Inductive op :=
| OAppend (id : N) (d : data)            (* append_async *)
| OFlush (k : nat)                       (* one group gets to the device *)
| OTruncMem (id : N) (upto : Z)          (* HomeLogStore::truncate, in memory only *)
| OTruncDev (id : N) (upto : Z)          (* HomeLogStore::truncate *)
| ODevTrunc                              (* LogDev::truncate *)
| ORollback (id : N) (to : Z)
| OCreate (id : N)
| ORemove (id : N)
| OCrash (keep : list N).                (* crash, and start with these stores opened again *)

Definition on_store (id : N) (f : glog -> glog) (l : list (N * glog)) : list (N * glog) :=
  map (fun e => if (fst e =? id)%N then (fst e, f (snd e)) else e) l.
Definition gl_append (d : data) (g : glog) : glog := GL (p_from g) (p_items g) (m_from g) (m_items g ++ [d]).
Definition gl_durable (d : data) (g : glog) : glog := GL (p_from g) (p_items g ++ [d]) (m_from g) (m_items g).
Definition gl_trunc (upto : Z) (g : glog) : glog :=
  GL (p_from g) (p_items g) (upto + 1) (skipn (Z.to_nat (upto + 1 - m_from g)) (m_items g)).
Definition gl_rollback (to : Z) (g : glog) : glog :=
  GL (p_from g) (firstn (Z.to_nat (to + 1 - p_from g)) (p_items g)) (m_from g) (firstn (Z.to_nat (to + 1 - m_from g)) (m_items g)).
Definition gl_crash (g : glog) : glog := GL (p_from g) (p_items g) (p_from g) (p_items g).
(** How many appends of the store are still on their way. *)
Definition on_way (id : N) (pend : list (N * data)) : nat := length (filter (fun e => (fst e =? id)%N) pend).
(** The truncation points get durable. *)
Definition gl_sync (n : nat) (g : glog) : glog := GL (m_from g) (firstn (length (m_items g) - n) (m_items g)) (m_from g) (m_items g).

Definition g_flush1 (g : ghost) : ghost :=
  match g_pend g with
  | [] => g
  | (id, d) :: r => Ghost (on_store id (gl_durable d) (g_live g)) r
  end.
Fixpoint g_flush (k : nat) (g : ghost) : ghost := match k with O => g | S k => g_flush k (g_flush1 g) end.
Definition g_flush_all (g : ghost) : ghost := g_flush (length (g_pend g)) g.
Definition g_trunc (id : N) (upto : Z) (g : ghost) : ghost :=
  let g1 := g_flush_all g in Ghost (on_store id (gl_trunc upto) (g_live g1)) (g_pend g1).
Definition g_sync (g : ghost) : ghost :=
  Ghost (map (fun e => (fst e, gl_sync (on_way (fst e) (g_pend g)) (snd e))) (g_live g)) (g_pend g).

(** [to]: everything has to be on the device first, unless the store has no append on its way
    and keeps all. *)
Definition gstep (g : ghost) (o : op) : ghost :=
  match o with
  | OAppend id d => Ghost (on_store id (gl_append d) (g_live g)) (g_pend g ++ [(id, d)])
  | OFlush k => g_flush k g
  | OTruncMem id upto => g_trunc id upto g
  | OTruncDev id upto => g_sync (g_trunc id upto g)
  | ODevTrunc => g_sync g
  | ORollback id to => let g1 := if Nat.eqb (on_way id (g_pend g)) 0 then g else g_flush_all g in
                       Ghost (on_store id (gl_rollback to) (g_live g1)) (g_pend g1)
  | OCreate id => Ghost (g_live g ++ [(id, GL 0 [] 0 [])]) (g_pend g)
  | ORemove id => Ghost (del_id id (g_live g)) (g_pend g)
  | OCrash keep => Ghost (map (fun e => (fst e, gl_crash (snd e))) (filter (fun e => mem_id (fst e) keep) (g_live g))) []
  end.

(** The code. *)
Definition exec (w : world) (o : op) : option world :=
  match o with
  | OAppend id d => match append w id d with Some (w', _) => Some w' | None => None end
  | OFlush k => flush_group w k
  | OTruncMem id upto => match truncate_mem w id upto with Some (w', true) => Some w' | _ => None end
  | OTruncDev id upto => match truncate_mem w id upto with Some (w', true) => Some (truncate w') | _ => None end
  | ODevTrunc => Some (truncate w)
  | ORollback id to => match rollback w id to with Some (w', true) => Some w' | _ => None end
  | OCreate id => Some (create_store w id)
  | ORemove id => Some (remove_store w id)
  | OCrash keep => match restart (w_disk w) (filter (fun id => mem_id id keep) (map fst (w_stores w))) with
                   | Some (w', _) => Some w'
                   | None => None
                   end
  end.

(** The record the log is going to be cut at is not dead: its store is open and has not rolled
    it back.  Without this see C21 and C22. *)
Definition cut_clean (w : world) : Prop :=
  forall t id lsn d, cut_point w = Some t -> In (t, (id, lsn, d)) (records (d_groups (w_disk w))) ->
    In id (map fst (w_stores w)) /\ is_rolled_back (d_rb (w_disk w)) id t = false.

Definition next_lsn (l : glog) : Z := m_from l + Z.of_nat (length (m_items l)).
(** What users may do.
    - an append goes to an open store;
    - in memory truncation stays within the store; with the device it may go beyond;
    - a rollback goes to an lsn of the store that is on the device (or just before the first),
      and not to the last one on the device while more are on their way (see C60);
    - a store is created with an id that is not reserved, and removed with nothing on its way. *)
Definition legal (w : world) (g : ghost) (o : op) : Prop :=
  match o with
  | OAppend id _ => exists l, find_id id (g_live g) = Some l
  | OFlush k => (1 <= k <= length (g_pend g))%nat
  | OTruncMem id upto => exists l, find_id id (g_live g) = Some l /\ m_from l <= upto < next_lsn l
  | OTruncDev id upto => (exists l, find_id id (g_live g) = Some l /\ m_from l <= upto) /\
                         (forall w', truncate_mem w id upto = Some (w', true) -> cut_clean w')
  | ODevTrunc => cut_clean w
  | ORollback id to =>
      exists l, find_id id (g_live g) = Some l /\ m_from l - 1 <= to /\
        (to < next_lsn l - 1 - Z.of_nat (on_way id (g_pend g)) \/
         (on_way id (g_pend g) = 0%nat /\ to = next_lsn l - 1))
  | OCreate id => find_id id (d_sb (w_disk w)) = None
  | ORemove id => (exists l, find_id id (g_live g) = Some l) /\ on_way id (g_pend g) = 0%nat
  | OCrash _ => True
  end.

Inductive reached : world -> ghost -> Prop :=
| reached_fresh : reached fresh (Ghost [] [])
| reached_step w g o w' : reached w g -> legal w g o -> exec w o = Some w' -> reached w' (gstep g o).

(** The answer of a read, from the plain lists. *)
Definition expected (l : glog) (lsn : Z) : answer :=
  if lsn <? m_from l then Refused
  else match nth_error (m_items l) (Z.to_nat (lsn - m_from l)) with Some d => Value d | None => Refused end.

(** The calls a store gets at start. *)
Definition calls_of (id : N) (cb : list entry) : list (Z * data) :=
  map (fun e => (snd (fst e), snd e)) (filter (fun e => (fst (fst e) =? id)%N) cb).
Fixpoint number (from : Z) (l : list data) : list (Z * data) :=
  match l with [] => [] | d :: r => (from, d) :: number (from + 1) r end.
