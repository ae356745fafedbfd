(** * Model of the index transaction journal of a checkpoint.

    Sources, all below [/repo/src/lib/index]:
    - [index_cp.hpp] 34-134 (txn_record, txn_journal, append_guard),
    - [index_cp.cpp] 28-65 (add_to_txn_journal), 232-254 (recover: the walk over
      the records), 326-398 (process_txn_record: which ids of a record are taken
      for what).

    The journal is a byte buffer.  A write outside it is [None].  Layout as
    compiled by gcc and clang on x86-64: bit fields from the low bit up;
    [std::pair<uint32_t, uint16_t>] takes 8 bytes (the pragma in force at the use
    of the template does not pack it), of which the last two are never written.
    Bytes of fresh memory are arbitrary ([junk]). *)
From Coq Require Import ZArith NArith List Bool Arith.
From Verif Require Import ByteBase Base.
Import ListNotations.

(** What add_to_txn_journal reads of a buffer: its identity, [is_meta_buf],
    [blkid()] and [m_node_level]. *)
Record bp := mkBp { bp_id : nat; bp_meta : bool; bp_blk : N; bp_chunk : N; bp_level : N }.

Record txn := mkTxn {
  t_ord : N; t_par : option bp; t_chi : option bp; t_new : list bp; t_freed : list bp }.

Definition wr (b : list N) (off : nat) (bs : list N) : option (list N) :=
  if (off + length bs <=? length b)%nat then Some (put off bs b) else None.

Definition bind {A B} (x : option A) (f : A -> option B) : option B :=
  match x with Some y => f y | None => None end.
Notation "x <- e ;; f" := (bind e (fun x => f)) (at level 60, e at next level, right associativity).

(** The fields of a [txn_record] at [r] (index_cp.hpp 38-46). *)
Definition byte (b : list N) (i : nat) : N := nth i b 0%N.
Definition has_par (b : list N) (r : nat) : bool := N.testbit (byte b r) 0.
Definition has_chi (b : list N) (r : nat) : bool := N.testbit (byte b r) 1.
Definition is_meta (b : list N) (r : nat) : bool := N.testbit (byte b r) 2.
Definition level (b : list N) (r : nat) : N := N.land (N.shiftr (byte b r) 3) 15.
Definition num_new (b : list N) (r : nat) : N := byte b (r + 1).
Definition num_freed (b : list N) (r : nat) : N := byte b (r + 2).
Definition ordinal (b : list N) (r : nat) : N := get (r + 4) 4 b.

(** index_cp.hpp 57-60 [total_ids], 65-68 [next_slot]: the same sum. *)
Definition total_ids (b : list N) (r : nat) : nat :=
  N.to_nat (num_new b r) + N.to_nat (num_freed b r)
  + (if has_par b r then 1 else 0) + (if has_chi b r then 1 else 0).

(** index_cp.hpp 62 [size], 63 [size_for_num_ids] (its argument is a byte): 16
    bytes with one id, 8 for every further one. *)
Definition rec_size (b : list N) (r : nat) : nat := 8 + 8 * total_ids b r.
Definition size_for (n : nat) : nat := 8 + 8 * (n mod 256).

(** index_cp.hpp 48-55, the constructor: [reserved1] keeps what the memory held;
    the first id is value-initialised. *)
Definition new_record (b : list N) (r : nat) (ord : N) : option (list N) :=
  b1 <- wr b r [N.land (byte b r) 128; 0; 0; 0]%N ;;
  b2 <- wr b1 (r + 4) (le 4 ord) ;;
  wr b2 (r + 8) (le 4 0 ++ le 2 0).

Inductive aop := AParent | AChild | ANew | AFreed.

(** index_cp.hpp 70-91 [append]. *)
Definition append (b : list N) (r : nat) (op : aop) (x : bp) : option (list N) :=
  let slot := total_ids b r in
  b1 <- match op with
        | AParent => wr b r [N.setbit (byte b r) 0]
        | AChild => wr b r [N.setbit (byte b r) 1]
        | ANew => wr b (r + 1) [((num_new b r + 1) mod 256)%N]
        | AFreed => wr b (r + 2) [((num_freed b r + 1) mod 256)%N]
        end ;;
  wr b1 (r + 8 + 8 * slot) (le 4 (bp_blk x) ++ le 2 (bp_chunk x)).

Definition set_meta (b : list N) (r : nat) : option (list N) := wr b r [N.setbit (byte b r) 2].

Definition set_level (b : list N) (r : nat) (l : N) : option (list N) :=
  wr b r [N.lor (N.ldiff (byte b r) 120) (N.shiftl (l mod 16) 3)].

Fixpoint append_new (b : list N) (r : nat) (l : list bp) : option (list N) :=
  match l with
  | [] => Some b
  | x :: l' => b1 <- append b r ANew x ;; append_new b1 r l'
  end.

Fixpoint append_freed (b : list N) (r : nat) (l : list bp) : option (list N) :=
  match l with
  | [] => Some b
  | x :: l' => b1 <- set_level b r (bp_level x) ;; b2 <- append b1 r AFreed x ;; append_freed b2 r l'
  end.

(** index_cp.cpp 48-64, the block that fills the record. *)
Definition fill_record (b : list N) (r : nat) (t : txn) : option (list N) :=
  b1 <- new_record b r (t_ord t) ;;
  b2 <- match t_par t with
        | Some p => b' <- append b1 r AParent p ;; if bp_meta p then set_meta b' r else Some b'
        | None => Some b1
        end ;;
  b3 <- match t_chi t with
        | Some c =>
            if match t_par t with Some p => Nat.eqb (bp_id p) (bp_id c) | None => false end
            then Some b2 else append b2 r AChild c
        | None => Some b2
        end ;;
  b4 <- append_new b3 r (t_new t) ;;
  append_freed b4 r (t_freed t).

(** The journal header, index_cp.hpp 109-113: [cp_id], [num_txns], [size]. *)
Definition j_cp (b : list N) : Z := unz64 (get 0 8 b).
Definition j_txns (b : list N) : N := get 8 4 b.
Definition j_size (b : list N) : N := get 12 4 b.

Definition fresh (junk : nat -> N) (from n : nat) : list N := map junk (seq from n).

Definition opt_n {A} (x : option A) : nat := match x with Some _ => 1 | None => 0 end.

(** index_cp.cpp 28-65 [add_to_txn_journal].  [j]: the buffer, [None] before the
    first transaction of the CP. *)
Definition add_txn (junk : nat -> N) (cp : Z) (j : option (list N)) (t : txn) : option (list N) :=
  let rsize := size_for (length (t_new t) + length (t_freed t) + opt_n (t_chi t) + opt_n (t_par t)) in
  b0 <- match j with
        | Some b => Some b
        | None => b <- wr (fresh junk 0 512) 0 (le 8 (z64 cp)) ;;
                  b' <- wr b 8 (le 4 0) ;; wr b' 12 (le 4 16)
        end ;;
  let size := N.to_nat (j_size b0) in
  let b1 := if (length b0 <? size + rsize)%nat
            then b0 ++ fresh junk (length b0) (Nat.max (size + rsize) 512)
            else b0 in
  b2 <- wr b1 8 (le 4 ((j_txns b1 + 1) mod 2 ^ 32)%N) ;;
  b3 <- fill_record b2 size t ;;
  wr b3 12 (le 4 ((j_size b3 + N.of_nat (rec_size b3 size)) mod 2 ^ 32)%N).

Fixpoint add_txns (junk : nat -> N) (cp : Z) (j : option (list N)) (l : list txn) : option (option (list N)) :=
  match l with
  | [] => Some j
  | t :: l' => b <- add_txn junk cp j t ;; add_txns junk cp (Some b) l'
  end.

(** ** Reading the journal back *)

(** What process_txn_record takes out of a record. *)
Record drec := mkD {
  d_ord : N; d_meta : bool; d_par : option (N * N); d_chi : option (N * N);
  d_new : list (N * N); d_freed : list (N * N); d_level : N }.

(** index_cp.hpp 93-96 [blk_id]: block number and chunk; the index is a byte. *)
Definition blk_id (b : list N) (r : nat) (i : nat) : option (N * N) :=
  let o := r + 8 + 8 * (i mod 256) in
  if (o + 8 <=? length b)%nat then Some (get o 4 b, get (o + 4) 2 b) else None.

Fixpoint blk_ids (b : list N) (r : nat) (i n : nat) : option (list (N * N)) :=
  match n with
  | O => Some []
  | S n' => x <- blk_id b r i ;; l <- blk_ids b r (S i) n' ;; Some (x :: l)
  end.

(** index_cp.cpp 373-398. *)
Definition dec_record (b : list N) (r : nat) : option drec :=
  if negb (r + 8 <=? length b)%nat then None else
  let i0 := 0 in
  p <- (if has_par b r then x <- blk_id b r i0 ;; Some (Some x) else Some None) ;;
  let i1 := if has_par b r then 1 else 0 in
  c <- (if has_chi b r then x <- blk_id b r i1 ;; Some (Some x) else Some None) ;;
  let i2 := if has_chi b r then S i1 else i1 in
  let nn := N.to_nat (num_new b r) in
  ns <- blk_ids b r i2 nn ;;
  fs <- blk_ids b r (i2 + nn) (N.to_nat (num_freed b r)) ;;
  Some (mkD (ordinal b r) (is_meta b r) p c ns fs (level b r)).

Fixpoint dec_records (b : list N) (r : nat) (n : nat) : option (list drec) :=
  match n with
  | O => Some []
  | S n' => d <- dec_record b r ;; l <- dec_records b (r + rec_size b r) n' ;; Some (d :: l)
  end.

(** index_cp.cpp 232-254 [recover]: a journal of another CP is ignored. *)
Definition recover (cp : Z) (b : list N) : option (option (list drec)) :=
  if Z.eqb (j_cp b) cp
  then l <- dec_records b 16 (N.to_nat (j_txns b)) ;; Some (Some l)
  else Some None.
