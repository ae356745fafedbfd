(** * What the index transaction journal has to give back. *)
From Coq Require Import ZArith NArith List Bool Arith.
From Verif Require Import TxnModel.
Import ListNotations.

Definition pos (x : bp) : N * N := (bp_blk x, bp_chunk x).

(** The nodes a transaction names: the child is left out when it is the parent. *)
Definition same (p c : option bp) : bool :=
  match p, c with Some x, Some y => Nat.eqb (bp_id x) (bp_id y) | _, _ => false end.

Definition expect (t : txn) : drec :=
  mkD (t_ord t)
      (match t_par t with Some p => bp_meta p | None => false end)
      (option_map pos (t_par t))
      (if same (t_par t) (t_chi t) then None else option_map pos (t_chi t))
      (map pos (t_new t)) (map pos (t_freed t))
      (last (map bp_level (t_freed t)) 0%N).

Definition bp_ok (x : bp) : bool :=
  ((bp_blk x <? 2 ^ 32) && (bp_chunk x <? 2 ^ 16) && (bp_level x <? 16))%N.
Definition opt_all (f : bp -> bool) (x : option bp) : bool :=
  match x with Some y => f y | None => true end.

Definition nodes (t : txn) : nat :=
  length (t_new t) + length (t_freed t) + opt_n (t_chi t) + opt_n (t_par t).

(** Block numbers of 32 bits, chunk numbers of 16, levels below 16, and one to
    255 nodes. *)
Definition txn_ok (t : txn) : bool :=
  (t_ord t <? 2 ^ 32)%N && opt_all bp_ok (t_par t) && opt_all bp_ok (t_chi t) &&
  forallb bp_ok (t_new t) && forallb bp_ok (t_freed t) &&
  (1 <=? nodes t)%nat && (nodes t <=? 255)%nat.

Definition total (l : list txn) : nat := fold_right (fun t n => 8 + 8 * nodes t + n) 16 l.
