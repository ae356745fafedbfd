(** Specification vocabulary for block identifiers (properties C01-C04).

    An extent is [count] consecutive blocks of chunk [chunk] from [start]. *)
From Coq Require Import NArith List.
From Verif Require Import BlkIdModel.
Import ListNotations.
Local Open Scope N_scope.

Record extent := Extent { chunk : N; start : N; count : N }.

(** The extent fits the declared widths: 16-bit chunk, 31-bit block number, 16-bit count. *)
Definition fits (e : extent) : Prop := chunk e < 65536 /\ start e < 2147483648 /\ count e < 65536.

(** The API view: build an id naming an extent, and read back what an id names. *)
Definition id_of (multi_flag : bool) (e : extent) : serialized :=
  mk_serialized multi_flag (start e) (count e) (chunk e).
Definition names (s : serialized) : extent := Extent (m_chunk_num s) (m_blk_num s) (m_nblks s).
Definition flag_of (s : serialized) : bool := negb (m_is_multi s =? 0).

(** A scattered extent list: same chunk, no empty piece, each piece fits. *)
Definition scattered (c : N) (ps : list extent) : Prop :=
  c < 65536 /\ Forall (fun e => fits e /\ chunk e = c /\ 0 < count e) ps.

(** Calling [add] once per extent on an empty multi-piece id; [None] when an add
    is refused (release assertion). *)
Fixpoint build (m : multi) (ps : list extent) : option multi :=
  match ps with
  | [] => Some m
  | e :: ps' => match multi_add m (start e) (count e) (chunk e) with
                | Some m' => build m' ps'
                | None => None
                end
  end.

Definition total (ps : list extent) : N := fold_right (fun e acc => count e + acc) 0 ps.
