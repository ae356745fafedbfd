(** The registry of index tables: IndexService's two maps, the reservation of
    ordinals, the superblocks of tables, and the sum of used sizes.  Model of

    - IndexService::reserve_ordinal (both), unreserve_ordinal, start (loading of
      tables), write_sb, num_tables, add_index_table, remove_index_table,
      get_index_table (both), used_size (lib/index/index_service.cpp:71-108,
      126-133, 156-203, 235-242),
    - constructor of IndexTable, destroy, used_size
      (include/homestore/index/index_table.hpp:63-93, 135-151).

    Simplifications.  A table is what its superblock says (uuid, ordinal,
    index_size) and the identity of its object.  Root nodes are not here.  Calls
    are atomic (m_index_map_mtx); the counting of pending calls is in
    StopModel.v.  sisl::IDReserver (not in the repository) is a set; its
    reserve() gives a number that is not in the set. *)
From Coq Require Import List Arith ZArith Lia Bool Permutation.
Import ListNotations.

Record tbl := Tbl { tid : nat; uuid : nat; ord : nat; size : Z }.

Definition tbl_eq_dec (a b : tbl) : {a = b} + {a <> b}.
Proof. decide equality; (apply Nat.eq_dec || apply Z.eq_dec). Defined.

Record state := St {
  res : list nat;            (* m_ordinal_reserver *)
  um : list (nat * tbl);     (* m_index_map *)
  om : list (nat * tbl);     (* m_ordinal_index_map *)
  sbs : list tbl;            (* superblocks of type "index" in the meta service *)
  dead : list tbl }.         (* objects whose m_sb is null: destroy() was called *)

(** std::map / unordered_map: find, insert (keeps what is there), erase. *)
Fixpoint find (k : nat) (m : list (nat * tbl)) : option tbl :=
  match m with
  | [] => None
  | (k', t) :: m => if k' =? k then Some t else find k m
  end.
Definition insert (k : nat) (t : tbl) (m : list (nat * tbl)) : list (nat * tbl) :=
  match find k m with Some _ => m | None => (k, t) :: m end.
Definition erase (k : nat) (m : list (nat * tbl)) : list (nat * tbl) :=
  filter (fun x => negb (fst x =? k)) m.

Definition reserved (s : state) (o : nat) : bool := existsb (Nat.eqb o) (res s).

(** reserve_ordinal(ordinal) (index_service.cpp:73-80); the result is ignored by
    both callers. *)
Definition reserve (s : state) (o : nat) : state :=
  if reserved s o then s else St (o :: res s) (um s) (om s) (sbs s) (dead s).

(** add_index_table (index_service.cpp:161-169). *)
Definition add (s : state) (t : tbl) : state :=
  St (res s) (insert (uuid t) t (um s)) (insert (ord t) t (om s)) (sbs s) (dead s).

(** remove_index_table (index_service.cpp:171-183), for a table whose superblock is there. *)
Definition remove_tbl (s : state) (t : tbl) : state :=
  if reserved s (ord t) then
    St (remove Nat.eq_dec (ord t) (res s)) (erase (uuid t) (um s)) (erase (ord t) (om s)) (sbs s) (dead s)
  else s.

(** One table found at start (index_service.cpp:97-108). *)
Definition load (s : state) (t : tbl) : state := add (reserve s (ord t)) t.

Inductive op :=
| Create (t : tbl)       (* constructor, ordinal chosen by the reserver *)
| CreateAt (t : tbl)     (* constructor, ordinal given by the caller *)
| Add (t : tbl)
| Remove (t : tbl)
| Destroy (t : tbl)
| Restart (l : list tbl).  (* start(): superblocks found in the order [l] *)

(** superblk::destroy sets m_sb to null (superblk_handler.hpp:98-105), and uuid(),
    ordinal() and used_size() of a table read through it (index_table.hpp:149-151). *)
Definition is_dead (s : state) (t : tbl) : bool :=
  existsb (fun x => if tbl_eq_dec x t then true else false) (dead s).

(** [None]: a null pointer is read. *)
Definition step (s : state) (o : op) : option state :=
  match o with
  | Create t | CreateAt t =>
      (* index_table.hpp:67-86: reserve, then m_sb.write(); the assert on an
         existing table only logs in release builds *)
      let s := reserve s (ord t) in Some (St (res s) (um s) (om s) (sbs s ++ [t]) (dead s))
  | Add t => if is_dead s t then None else Some (add s t)
  | Remove t => if is_dead s t then None else Some (remove_tbl s t)
  | Destroy t =>
      (* index_table.hpp:135-147 *)
      Some (St (res s) (um s) (om s) (remove tbl_eq_dec t (sbs s)) (t :: dead s))
  | Restart l => Some (fold_left load l (St [] [] [] (sbs s) []))
  end.

(** What the environment grants: the reserver gives a number that is free, and a
    restart finds the superblocks that are there. *)
Definition env (s : state) (o : op) : Prop :=
  match o with
  | Create t => reserved s (ord t) = false
  | Restart l => Permutation l (sbs s)
  | _ => True
  end.

Definition init : state := St [] [] [] [] [].

(** get_index_table (index_service.cpp:185-203), num_tables (:156-159). *)
Definition by_uuid (s : state) (u : nat) : option tbl := find u (um s).
Definition by_ord (s : state) (o : nat) : option tbl := find o (om s).
Definition num_tables (s : state) : nat := length (um s).

(** Conversion to int (32 bits) and of int to uint64_t. *)
Definition to_int (x : Z) : Z := ((x + 2 ^ 31) mod 2 ^ 32 - 2 ^ 31)%Z.
Definition to_u64 (x : Z) : Z := (x mod 2 ^ 64)%Z.

(** used_size (index_service.cpp:235-242): [auto size{0}] is an int. *)
Definition used_size (s : state) : option Z :=
  if existsb (fun x => is_dead s (snd x)) (um s) then None
  else Some (to_u64 (fold_left (fun a x => to_int (to_u64 (to_u64 a + to_u64 (size (snd x))))) (um s) 0%Z)).
