(** * Specification vocabulary: extents of blocks.
    Shared by the allocator properties; independent of any code. *)
From Coq Require Import NArith List Bool.
Import ListNotations.
Local Open Scope N_scope.

(** An extent: first block, number of blocks. *)
Definition ext := (N * N)%type.

Definition inside (b : N) (x : ext) : bool := (fst x <=? b) && (b <? fst x + snd x).

(** In how many of the extents does block [b] occur? *)
Definition holders (b : N) (l : list ext) : nat := length (filter (inside b) l).

(** Total number of blocks. *)
Definition blocks (l : list ext) : N := fold_right (fun x a => snd x + a) 0 l.

(** [l] are non-empty extents laid end to end, covering exactly [start, start+len). *)
Fixpoint tiles (start len : N) (l : list ext) : Prop :=
  match l with
  | [] => len = 0
  | x :: r => fst x = start /\ 0 < snd x /\ snd x <= len /\ tiles (start + snd x) (len - snd x) r
  end.

(** Two extents share a block. *)
Definition overlap (x y : ext) : Prop := exists b, inside b x = true /\ inside b y = true.
