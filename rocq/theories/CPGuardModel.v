(** * Model of the checkpoint section object CPGuard.
    Source: src/lib/checkpoint/cp_mgr.cpp:382-428, src/include/homestore/checkpoint/cp_mgr.hpp:115-144.
    The manager is reduced to what the object sees: the current checkpoint, the checkpoints
    that can be referenced, and one entry in [refs] per reference taken and not dropped
    (m_enter_cnt).  A checkpoint that is no longer current and has no reference is flushed and
    deleted; CPModel.v is about that.  Threads and objects have numbers. *)
From Coq Require Import ZArith List Bool Arith.
Import ListNotations.
Open Scope Z_scope.

(** cp_mgr.hpp:118-119 m_cp, m_pushed *)
Record guard := Guard { g_cp : Z; g_pushed : bool }.
(** [stacks]: t_cp_stack of every thread, top first. *)
Record gst := Gst { cur : Z; alive : list Z; refs : list Z; guards : list (nat * guard); stacks : nat -> list Z }.
Definition ginit (c : Z) : gst := Gst c [c] [] [] (fun _ => []).

Definition set_stack (t : nat) (v : list Z) (f : nat -> list Z) : nat -> list Z := fun u => if Nat.eqb u t then v else f u.
Fixpoint gfind (g : nat) (l : list (nat * guard)) : option guard :=
  match l with [] => None | (k, x) :: r => if Nat.eqb k g then Some x else gfind g r end.
Definition gset (g : nat) (x : guard) (l : list (nat * guard)) : list (nat * guard) :=
  map (fun e => if Nat.eqb (fst e) g then (fst e, x) else e) l.
Definition gdel (g : nat) (l : list (nat * guard)) : list (nat * guard) := filter (fun e => negb (Nat.eqb (fst e) g)) l.
Fixpoint drop1 (c : Z) (l : list Z) : list Z :=
  match l with [] => [] | x :: r => if x =? c then r else x :: drop1 c r end.
Definition has (c : Z) (l : list Z) : bool := existsb (Z.eqb c) l.

Inductive gop :=
| GNew (t g : nat)          (* thread [t] constructs [g] with CPManager::cp_guard() *)
| GCopy (g h : nat)         (* [h] is copy constructed from [g] *)
| GAssign (g h : nat)       (* g = h *)
| GGet (t g : nat)          (* thread [t] uses [g]: get, operator->, operator*, context *)
| GDestroy (t g : nat)      (* thread [t] destroys [g] *)
| GSwitch                   (* the next checkpoint becomes current *)
| GRetire (c : Z).          (* checkpoint [c] is flushed and deleted *)
Inductive gres := GStop | GCrash | GOk (s : gst).

(** :382-393 CPGuard(CPManager* ) *)
Definition gnew (t g : nat) (s : gst) : gres :=
  let c := match stacks s t with [] => cur s | c :: _ => c end in
  if has c (alive s) then GOk (Gst (cur s) (alive s) (c :: refs s) ((g, Guard c true) :: guards s) (set_stack t (c :: stacks s t) (stacks s)))
  else GCrash.
(** :403-407 *)
Definition gcopy (g h : nat) (s : gst) : gres :=
  match gfind g (guards s) with
  | None => GStop
  | Some x => if has (g_cp x) (alive s) then GOk (Gst (cur s) (alive s) (g_cp x :: refs s) ((h, Guard (g_cp x) false) :: guards s) (stacks s))
              else GCrash
  end.
(** :409-414; the copy that is returned takes a reference and drops it. *)
Definition gassign (g h : nat) (s : gst) : gres :=
  match gfind g (guards s), gfind h (guards s) with
  | Some _, Some x => if has (g_cp x) (alive s) then GOk (Gst (cur s) (alive s) (g_cp x :: refs s) (gset g (Guard (g_cp x) false) (guards s)) (stacks s))
                      else GCrash
  | _, _ => GStop
  end.
(** :420-428 *)
Definition gget (t g : nat) (s : gst) : gres :=
  match gfind g (guards s) with
  | None => GStop
  | Some x => if g_pushed x then GOk s
              else GOk (Gst (cur s) (alive s) (refs s) (gset g (Guard (g_cp x) true) (guards s)) (set_stack t (g_cp x :: stacks s t) (stacks s)))
  end.
(** :395-401; cp_io_exit of a deleted checkpoint, or of one nobody has entered, is a crash. *)
Definition gdestroy (t g : nat) (s : gst) : gres :=
  match gfind g (guards s) with
  | None => GStop
  | Some x =>
    let st := match g_pushed x, stacks s t with true, _ :: r => set_stack t r (stacks s) | _, _ => stacks s end in
    if has (g_cp x) (alive s) && has (g_cp x) (refs s) then GOk (Gst (cur s) (alive s) (drop1 (g_cp x) (refs s)) (gdel g (guards s)) st)
    else GCrash
  end.
Definition gstep (s : gst) (a : gop) : gres :=
  match a with
  | GNew t g => gnew t g s
  | GCopy g h => gcopy g h s
  | GAssign g h => gassign g h s
  | GGet t g => gget t g s
  | GDestroy t g => gdestroy t g s
  | GSwitch => GOk (Gst (cur s + 1) (cur s + 1 :: alive s) (refs s) (guards s) (stacks s))
  | GRetire c => if (c <? cur s) && negb (has c (refs s)) then GOk (Gst (cur s) (filter (fun x => negb (x =? c)) (alive s)) (refs s) (guards s) (stacks s)) else GStop
  end.
