(** * Specification vocabulary for the fixed-size allocator (C09). *)
From Coq Require Import NArith List Bool.
From Verif Require Import FixedModel.
Import ListNotations.
Local Open Scope N_scope.

(** How often [b] occurs. *)
Fixpoint copies (b : N) (l : list N) : nat :=
  match l with [] => O | x :: r => ((if b =? x then 1 else 0) + copies b r)%nat end.

(** The user: the blocks it owns (one entry per hand-out) and the blocks it re-reserved
    during recovery. *)
Record user := User { u_alloc : fixed; u_owned : list N; u_replayed : list N }.

Inductive uop := Alloc | Free (b : N) | Replay (b : N) | Recovered.

Fixpoint remove1 (b : N) (l : list N) : list N :=
  match l with [] => [] | x :: r => if b =? x then r else x :: remove1 b r end.

Definition ustep (u : user) (o : uop) : user :=
  match o with
  | Alloc => match alloc (u_alloc u) with
             | (s, Some b) => User s (b :: u_owned u) (u_replayed u)
             | (s, None) => User s (u_owned u) (u_replayed u)
             end
  | Free b => User (free (u_alloc u) b) (remove1 b (u_owned u)) (u_replayed u)
  | Replay b => User (reserve_on_cache (u_alloc u) b)
                     (if mem b (u_owned u) then u_owned u else b :: u_owned u) (b :: u_replayed u)
  | Recovered => User (recovery_completed (u_alloc u)) (u_owned u) (u_replayed u)
  end.
Definition urun (u : user) (l : list uop) : user := fold_left ustep l u.

(** Only owned blocks are freed; a block re-reserved during recovery is not freed before
    recovery completes; re-reserving happens only during recovery. *)
Definition legal (u : user) (o : uop) : Prop :=
  match o with
  | Alloc => True
  | Free b => In b (u_owned u) /\ (f_active (u_alloc u) = false -> ~ In b (u_replayed u))
  | Replay b => b < f_total (u_alloc u) /\ f_active (u_alloc u) = false
  | Recovered => f_active (u_alloc u) = false
  end.
Fixpoint legal_run (u : user) (l : list uop) : Prop :=
  match l with [] => True | o :: r => legal u o /\ legal_run (ustep u o) r end.

(** The start: the allocator as loaded from the bitmap, the user owning what the bitmap
    says is allocated. *)
Definition start (total : N) (persist : bool) (bm : N -> bool) : user :=
  User (load total persist bm) (filter (fun b => persist && bm b) (upto 0 (N.to_nat total))) [].
