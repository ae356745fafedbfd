(** * What the requests are to do, without the maps. *)
From Coq Require Import NArith Arith List Bool.
From Verif Require Import ReqLifeModel.
Import ListNotations.

(** The log alone: its entries and how many are committed; a commit tells index and key. *)
Record plain := Plain { p_log : list (option N); p_done : nat }.
Definition plain_step (p : plain) (e : ev) : plain * list (nat * N) :=
  match e with
  | Append e _ => (Plain (p_log p ++ [e]) (p_done p), [])
  | Overwrite n => (Plain (firstn n (p_log p)) (p_done p), [])
  | Commit =>
      (Plain (p_log p) (S (p_done p)),
       match nth_error (p_log p) (p_done p) with Some (Some k) => [(S (p_done p), k)] | _ => [] end)
  | _ => (p, [])
  end.
Fixpoint plain_run (p : plain) (l : list ev) : plain * list (nat * N) :=
  match l with
  | [] => (p, [])
  | e :: l => let (p, o) := plain_step p e in let (p', o') := plain_run p l in (p', o ++ o')
  end.

Definition committed (o : list out) : list (nat * N) :=
  flat_map (fun x => match x with OCommit i k _ => [(i, k)] | _ => [] end) o.

(** The allocations that are neither given back nor committed; None: one is settled twice or was never made. *)
Fixpoint settle (live : list nat) (o : list out) : option (list nat) :=
  match o with
  | [] => Some live
  | OAlloc r :: o => if in_dec Nat.eq_dec r live then None else settle (r :: live) o
  | OFree r :: o | OCommit _ _ r :: o => if in_dec Nat.eq_dec r live then settle (remove Nat.eq_dec r live) o else None
  end.
