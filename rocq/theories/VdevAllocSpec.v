(** * What an allocation over many chunks must do. *)
From Coq Require Import Arith NArith List Bool Permutation.
From Verif Require Import ExtSpec VdevAllocModel.
Import ListNotations.
Local Open Scope N_scope.

(** What is asked of the allocator of one chunk, for sizes [ok]: [holds a l] says that [l] is what is
    allocated.  An allocation that fails leaves nothing in the id. *)
Record lawful {A} (alc : A -> N -> list ext -> option (A * status * list ext))
  (fre : A -> list ext -> option A) (pok : bool) (ok : N -> Prop) (holds : A -> list ext -> Prop) : Prop := {
  la_alloc : forall a l n, holds a l -> ok n -> exists a' s p, alc a n [] = Some (a', s, p) /\
    match s with
    | Success => p <> [] /\ blocks p = n /\ holds a' (p ++ l)
    | Partial => 0 < blocks p < n /\ if pok then holds a' (p ++ l)
                                     else exists a2, fre a' p = Some a2 /\ holds a2 l
    | Fail => p = [] /\ holds a' l
    end;
  la_perm : forall a l l', holds a l -> Permutation l l' -> holds a l'
}.

(** The chunk's allocator says no. *)
Definition refuses {A} (alc : A -> N -> list ext -> option (A * status * list ext)) (pok : bool) (a : A) (n : N) : Prop :=
  exists a' s p, alc a n [] = Some (a', s, p) /\ (s = Fail \/ (s = Partial /\ pok = false)).

(** The chunks from index [i] on and around. *)
Definition turn (chunks : list N) (i : nat) : list N :=
  let i := if (length chunks <=? i)%nat then 0%nat else i in skipn i chunks ++ firstn i chunks.

(** The pieces of one chunk in a list. *)
Definition of_chunk (c : N) (l : list (N * ext)) : list ext := map snd (filter (fun x => fst x =? c) l).
Definition total (l : list (N * ext)) : N := blocks (map snd l).
