(** * What is expected of the rebuilt dependency links. *)
From Coq Require Import ZArith List Bool Arith.
From Verif Require Import WbModel WbSpec DagModel.
Import ListNotations.

(** ** Legal use: WbSpec.legal, and
    - a node freed is not used again in the CP (its block is given back when the CP ends, C11);
    - meta buffers are only parents of roots;
    - a split or merge makes or frees a node. *)
Section Legal.
Variable isnew : nat -> bool.
Variable lvl : nat -> nat.
Variable pos : nat -> Z.
Variable ismeta : nat -> bool.

Definition uses (o : wop) : list nat :=
  match o with
  | OWrite b => [b]
  | OTransact p c news freeds => p :: c :: news ++ freeds
  | ORoot m r => [m; r]
  | OFree b => [b]
  end.
Definition frees (o : wop) : list nat :=
  match o with OTransact _ _ _ freeds => freeds | OFree b => [b] | _ => [] end.

Definition strict_op (gone intro : list nat) (o : wop) : bool :=
  legal_op isnew lvl pos intro o && forallb (fun b => negb (mem b gone)) (uses o) &&
  match o with
  | OTransact p c news freeds =>
      forallb (fun b => negb (ismeta b)) (p :: c :: news ++ freeds) && nodupb freeds &&
      forallb (known isnew intro) freeds &&
      negb (match news, freeds with [], [] => true | _, _ => false end)
  | ORoot m r => ismeta m && negb (ismeta r)
  | OWrite _ => true
  | OFree b => negb (ismeta b)
  end.
Fixpoint strict (gone intro : list nat) (l : list wop) : bool :=
  match l with
  | [] => true
  | o :: l' => strict_op gone intro o && strict (frees o ++ gone) (intro_op intro o) l'
  end.

(** No node that already waits for another one is made root. *)
Fixpoint roots_free (w : wb) (l : list wop) : bool :=
  match l with
  | [] => true
  | o :: l' =>
      match o with
      | ORoot m r => match above w r with Some u => Nat.eqb u m | None => true end
      | _ => true
      end &&
      match wexec w o with Some w' => roots_free w' l' | None => false end
  end.
End Legal.

(** Nodes merged away in a CP: those in the lists of freed nodes. *)
Definition merged (l : list wop) (b : nat) : bool :=
  existsb (fun o => match o with OTransact _ _ _ freeds => mem b freeds | _ => false end) l.

(** The next buffer above [b] that is to be written: nodes merged away are passed over. *)
Inductive next_up (w : wb) (gone : nat -> bool) : nat -> nat -> Prop :=
| NextHere b u : above w b = Some u -> gone u = false -> next_up w gone b u
| NextOver b u v : above w b = Some u -> gone u = true -> next_up w gone u v -> next_up w gone b v.

(** Everything a journal names. *)
Definition named (j : list rec) : list nat :=
  flat_map (fun r => (match r_parent r with Some p => [p] | None => [] end) ++
                     (match r_child r with Some c => [c] | None => [] end) ++ r_news r ++ r_freeds r) j.
