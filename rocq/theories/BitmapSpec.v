(** * Specification vocabulary for the persisted bitmap (C10). *)
From Coq Require Import NArith List Bool.
From Verif Require Import ExtSpec BitmapModel.
Import ListNotations.
Local Open Scope N_scope.

(** What the user has done: blocks committed and not freed now, the same when the
    last flush began, blocks committed since that flush began, whether a flush is
    running, whether anything was committed since the last flush began, and whether
    anything had been committed in the same sense when it began. *)
Record truth := Truth { t_now : N -> bool; t_begin : N -> bool; t_in_flush : N -> bool; t_flushing : bool;
                        t_commits : bool; t_due : bool }.

Inductive bop := Commit (pieces : list ext) | Free (pieces : list ext) | Begin | End.

Definition covers (l : list ext) (b : N) : bool := existsb (inside b) l.

Definition tstep (t : truth) (o : bop) : truth :=
  match o with
  | Commit l => Truth (fun b => covers l b || t_now t b) (t_begin t)
                      (fun b => (t_flushing t && covers l b) || t_in_flush t b) (t_flushing t) true (t_due t)
  | Free l => Truth (fun b => negb (covers l b) && t_now t b) (t_begin t) (t_in_flush t) (t_flushing t) (t_commits t) (t_due t)
  | Begin => Truth (t_now t) (t_now t) (fun _ => false) true false (t_commits t)
  | End => Truth (t_now t) (t_begin t) (fun _ => false) false (t_commits t) (t_due t)
  end.

Definition bstep (s : bst) (o : bop) : option bst :=
  match o with
  | Commit l => reserve_on_disk s l
  | Free l => Some (free_on_disk s l)
  | Begin => flush_begin s
  | End => flush_end s
  end.

Fixpoint brun (s : bst) (t : truth) (l : list bop) : option (bst * truth) :=
  match l with
  | [] => Some (s, t)
  | o :: r => match bstep s o with Some s' => brun s' (tstep t o) r | None => None end
  end.

(** A legal user commits one non-empty extent at a time, only of blocks it does not
    have committed; flushes do not nest; and a block committed during a flush is not
    freed during the same flush. *)
Definition legal (t : truth) (o : bop) : Prop :=
  match o with
  | Commit l => exists x, l = [x] /\ 0 < snd x /\ forall b, inside b x = true -> t_now t b = false
  | Free l => forall b, covers l b = true -> t_in_flush t b = false
  | Begin => t_flushing t = false
  | End => t_flushing t = true
  end.
Fixpoint legal_run (t : truth) (l : list bop) : Prop :=
  match l with [] => True | o :: r => legal t o /\ legal_run (tstep t o) r end.

(** At start the user has what the recovered bitmap says. *)
Definition truth_of (bm : N -> bool) : truth := Truth bm (fun _ => false) (fun _ => false) false true false.
Definition stored_bit (s : bst) (b : N) : bool := match b_stored s with Some m => m b | None => false end.
