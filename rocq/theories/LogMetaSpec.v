(** * What the metadata of a log device stands for: the stores with their first sequence numbers,
    and the rollbacks; each in memory and on the device. *)
From Coq Require Import ZArith Arith List Bool.
From Verif Require Import LogMetaModel.
Import ListNotations.

Record abs := Abs { a_stores : nat -> option Z; a_recs : list (nat * (Z * Z));
                    a_dstores : nat -> option Z; a_drecs : list (nat * (Z * Z)) }.
Definition none_yet : abs := Abs (fun _ => None) [] (fun _ => None) [].
Definition put {A} (f : nat -> option A) (i : nat) (v : option A) : nat -> option A := fun j => if j =? i then v else f j.

Definition if_now {A} (now : bool) (x y : A) : A := if now then x else y.
Definition removed (p : nat * (Z * Z) -> bool) (l : list (nat * (Z * Z))) : bool := existsb p l.
Definition kept (p : nat * (Z * Z) -> bool) (l : list (nat * (Z * Z))) : list (nat * (Z * Z)) := filter (fun r => negb (p r)) l.

Inductive change : abs -> ev -> abs -> Prop :=
| ch_reserve a j now id : a_stores a id = None -> (forall i, i < id -> a_stores a i <> None) ->
    let f := put (a_stores a) id (Some 0%Z) in
    change a (Reserve j now) (Abs f (a_recs a) (if_now now f (a_dstores a)) (a_drecs a))
| ch_unreserve a j id now : a_stores a id <> None ->
    let f := put (a_stores a) id None in
    let p := fun r => Nat.eqb (fst r) id in
    change a (Unreserve j id now)
      (Abs f (kept p (a_recs a)) (if_now now f (a_dstores a))
           (if_now (now && removed p (a_recs a)) (kept p (a_recs a)) (a_drecs a)))
| ch_update a j id v now : a_stores a id <> None -> (0 <= v)%Z ->
    let f := put (a_stores a) id (Some v) in
    change a (Update j id v now) (Abs f (a_recs a) (if_now now f (a_dstores a)) (a_drecs a))
| ch_add a id x y now : let r := a_recs a ++ [(id, (x, y))] in
    change a (AddRecord id x y now) (Abs (a_stores a) r (a_dstores a) (if_now now r (a_drecs a)))
| ch_drop a u now : let p := fun r : nat * (Z * Z) => (snd (snd r) <=? u)%Z in
    change a (DropUpto u now)
      (Abs (a_stores a) (kept p (a_recs a)) (a_dstores a)
           (if_now (now && removed p (a_recs a)) (kept p (a_recs a)) (a_drecs a)))
| ch_persist a : change a Persist (Abs (a_stores a) (a_recs a) (a_stores a) (a_recs a))
| ch_crash a : change a Crash (Abs (a_dstores a) (a_drecs a) (a_dstores a) (a_drecs a))
| ch_crash_unreserve a id : a_stores a id <> None ->
    let p := fun r => Nat.eqb (fst r) id in
    let d := if_now (removed p (a_recs a)) (kept p (a_recs a)) (a_drecs a) in
    change a (CrashInUnreserve id) (Abs (a_dstores a) d (a_dstores a) d)
| ch_crash_persist a : change a CrashInPersist (Abs (a_stores a) (a_drecs a) (a_stores a) (a_drecs a)).
Inductive changes : abs -> list ev -> abs -> Prop :=
| chs_nil a : changes a [] a
| chs_cons a e b l c : change a e b -> changes b l c -> changes a (e :: l) c.

(** A list of the stores, by id, each once. *)
Inductive ascending : list nat -> Prop :=
| asc_nil : ascending []
| asc_one i : ascending [i]
| asc_cons i j l : i < j -> ascending (j :: l) -> ascending (i :: j :: l).
Definition lists (l : list (nat * Z)) (f : nat -> option Z) : Prop :=
  ascending (map fst l) /\ forall i v, In (i, v) l <-> f i = Some v.
