(** * What is said of the shutdown of services. *)
From Coq Require Import ZArith List Bool.
From Verif Require Import StopModel.
Import ListNotations.
Open Scope Z_scope.

(** The calls that give back what they counted, on every path. *)
Inductive tidy : list act -> Prop :=
| t_alloc : tidy d_alloc
| t_commit n : tidy (d_commit n)
| t_read1 : tidy d_read1
| t_read n : tidy (d_read n)
| t_alloc_write w : tidy w -> tidy (d_alloc_write w)
| t_write_all n w : tidy w -> tidy (d_write_all n w)
| t_free : tidy d_free
| t_append id f : tidy f -> tidy (v_append id f)
| t_vcall : tidy v_call
| t_vtruncate : tidy v_truncate
| t_flush : tidy v_flush
| t_flush_elsewhere : tidy v_flush_elsewhere
| t_lcall b : tidy b -> tidy (l_call b)
| t_swrite id f : tidy f -> tidy (s_write id f)
| t_sappend id f : tidy f -> tidy (s_append id f)
| t_swaf id f : tidy f -> tidy (s_write_and_flush id f)
| t_scall b : tidy b -> tidy (s_call b)
| t_icall : tidy i_call
| t_tcall : tidy t_call
| t_rcall b : tidy b -> tidy (r_call b)
| t_rwrite b : tidy b -> tidy (r_write b)
| t_gc : tidy g_gc
| t_gcall : tidy g_call
| t_both a b : tidy a -> tidy b -> tidy (a ++ b) (* one call after the other, or nothing *)
| t_none : tidy [].
(** The others: component and path. *)
Inductive leaky : nat -> list act -> Prop :=
| k_missing : leaky LogSvc l_missing
| k_read_error : leaky LogDv v_read_error
| k_wrong_thread : leaky LogSt s_wrong_thread
| k_mismatch b : tidy b -> leaky Repl (r_mismatch b).

Definition calls (P : list act -> Prop) (l : list ev) : Prop := forall x, In (ENew x) l -> P x.
Definition runs_only (l : list ev) : Prop := forall e, In e l -> exists i, e = ERun i.

(** Calls whose every use of component [c] is between a count and its return: counted after a
    look at the flag, where [x] is true, or before it. *)
Inductive within : list act -> Prop :=
| w_none : within []
| w_both a b : within a -> within b -> within (a ++ b)
| w_use d : within [Use d]
| w_note x : within [Note x]
| w_guard d b : within b -> within (guard d b).
Inductive covered (x : bool) (c : nat) : list act -> Prop :=
| v_none : covered x c []
| v_both a b : covered x c a -> covered x c b -> covered x c (a ++ b)
| v_guard b : x = true -> within b -> covered x c (guard c b)
| v_first b : within b -> covered x c (Inc c :: Chk c (length b) :: b ++ [Dec c])
| v_other d b : d <> c -> covered x c b -> covered x c (guard d b)
| v_use d : d <> c -> covered x c [Use d]
| v_note n : covered x c [Note n].

(** At the moment stop() sets the flag no call stands between its check and its count. *)
Fixpoint calm_stops (s : st) (l : list ev) : Prop :=
  match l with
  | [] => True
  | e :: r =>
    match e with EStop c => forall t x, In t (thr s) -> t <> Inc c :: x | _ => True end /\
    match step s e with Some s' => calm_stops s' r | None => True end
  end.

(** Nothing is being stopped. *)
Definition no_stop (l : list ev) : Prop := forall c, ~ In (EStop c) l.
(** Calls that return no sequence number, and append_async. *)
Definition quiet (f : list act) : Prop := forall id, ~ In (Note (Returned id)) f.
Definition speaks (x : list act) : Prop := (tidy x /\ quiet x) \/ exists id f, tidy f /\ quiet f /\ x = s_append id f.
