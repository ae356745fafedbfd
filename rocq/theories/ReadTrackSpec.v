(** * Frees wait for reads: the specification. *)
From Coq Require Import ZArith NArith List Bool Arith.
From Verif Require Import ReadTrackModel.
Import ListNotations.

Definition covers (x : ext) (b : N * N) : Prop := let '(c, n, k) := x in fst b = c /\ (n <= snd b < n + k)%N.
Definition valid (x : ext) : Prop := let '(_, _, k) := x in (0 < k)%N.
Definition job_ok (j : job) : Prop := match j with JRead x => valid x | JFree xs => xs <> [] /\ Forall valid xs end.
(** Read [x] and free [xs] have a block in common. *)
Definition share (x : ext) (xs : list ext) : Prop := exists y b, In y xs /\ covers x b /\ covers y b.
(** They are within the same group of eight blocks. *)
Definition near (x : ext) (xs : list ext) : Prop := exists y b b', In y xs /\ covers x b /\ covers y b' /\ fst b = fst b' /\ (snd b / 8 = snd b' / 8)%N.
Definition before {A} (a b : A) (l : list A) : Prop := exists l1 l2 l3, l = l1 ++ a :: l2 ++ b :: l3.
Inductive reach : st -> Prop :=
| r_init : reach init
| r_start s j : reach s -> job_ok j -> reach (start j s)
| r_step s i s' : reach s -> step i s = Some s' -> reach s'.
Definition is_read (s : st) (i : nat) (x : ext) : Prop := i < t_n s /\ t_job s i = JRead x.
Definition is_free (s : st) (i : nat) (xs : list ext) : Prop := i < t_n s /\ t_job s i = JFree xs.
(** The job has more to do. *)
Definition busy (s : st) (i : nat) : Prop := t_ops s i <> [].
