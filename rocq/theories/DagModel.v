(** * Model of the rebuilding of the index dependency links after a crash.
    Sources, all below [/repo/src/lib/index]: [wb_cache.cpp] 281-316 (which record a call
    leaves in the journal), [index_cp.cpp] 232-324 (recover) and 326-398 (process_txn_record),
    [index_service.cpp] 306-331 (down-buffer counters).
    The journal is a list of records; that it reads back record for record is C45.  One index
    table: its meta buffer is a number like the others.  Release build: [HS_DBG_ASSERT] and the
    list of down buffers are absent. *)
From Coq Require Import ZArith List Bool Arith.
From Verif Require Import WbModel.
Import ListNotations.

(** A record: the parent, the child changed in place, the nodes made and the nodes freed. *)
Record rec := Rec { r_parent : option nat; r_child : option nat; r_news : list nat; r_freeds : list nat }.

(** wb_cache.cpp 306-316, at the end of transact_bufs.  [w]: the state after the links. *)
Definition record_of (w : wb) (o : wop) : list rec :=
  let two p c := if b_new (w_buf w c) then Rec (Some p) None [c] [] else Rec (Some p) (Some c) [] [] in
  match o with
  | OTransact p c [] [] => [two p c]
  | OTransact p c news freeds => [Rec (b_up (w_buf w c)) (Some c) news freeds]
  | ORoot m r => [two m r]
  | OWrite _ | OFree _ => []
  end.

(** A CP with its journal. *)
Fixpoint wrunj (w : wb) (l : list wop) : option (wb * list rec) :=
  match l with
  | [] => Some (w, [])
  | o :: l' => match wexec w o with
               | Some w1 => match wrunj w1 l' with
                            | Some (w2, j) => Some (w2, record_of w1 o ++ j)
                            | None => None
                            end
               | None => None
               end
  end.

(** A buffer of the rebuilt map: [m_created_cp_id == cp id], [m_node_freed], [m_up_buffer],
    [m_wait_for_down_buffers]. *)
Record rbuf := RBuf { rb_new : bool; rb_freed : bool; rb_up : option nat; rb_wait : Z }.
Definition fresh : rbuf := RBuf false false None 0.
(** The map: the keys put in, latest first, and the buffers. *)
Record dag := Dag { d_ids : list nat; d_buf : nat -> rbuf }.
Definition empty : dag := Dag [] (fun _ => fresh).
Definition upd_r (m : nat -> rbuf) (i : nat) (f : rbuf -> rbuf) : nat -> rbuf :=
  fun j => if Nat.eqb j i then f (m j) else m j.
Definition r_up (u : option nat) (b : rbuf) : rbuf := RBuf (rb_new b) (rb_freed b) u (rb_wait b).
Definition r_wait (d : Z) (b : rbuf) : rbuf := RBuf (rb_new b) (rb_freed b) (rb_up b) (rb_wait b + d).
Definition r_new (b : rbuf) : rbuf := RBuf true (rb_freed b) (rb_up b) (rb_wait b).
Definition r_freed (b : rbuf) : rbuf := RBuf (rb_new b) true (rb_up b) (rb_wait b).

(** The three last statements of rec_to_buf (index_cp.cpp 366-372) and modifyBuffer (258-262):
    the link of [b] moves from [rb_up] to [u]. *)
Definition relink (m : nat -> rbuf) (b u : nat) : nat -> rbuf :=
  let m1 := match rb_up (m b) with Some o => upd_r m o (r_wait (-1)) | None => m end in
  upd_r (upd_r m1 u (r_wait 1)) b (r_up (Some u)).

Definition same (a b : option nat) : bool :=
  match a, b with Some x, Some y => Nat.eqb x y | None, None => true | _, _ => false end.

(** index_cp.cpp 329-375 rec_to_buf.  [None]: a null up buffer is followed. *)
Definition rec_to_buf (d : dag) (b : nat) (up : option nat) : option dag :=
  let d1 := if mem b (d_ids d) then d else Dag (b :: d_ids d) (upd_r (d_buf d) b (fun _ => fresh)) in
  match up with
  | None => Some d1
  | Some u =>
    let m := d_buf d1 in
    let real := if rb_new (m u) || rb_freed (m u) then rb_up (m u) else Some u in
    if same (rb_up (m b)) real then Some d1
    else match real with
         | Some r => Some (Dag (d_ids d1) (relink m b r))
         | None => None
         end
  end.

(** index_cp.cpp 387-397: the two loops. *)
Fixpoint put_news (d : dag) (up : option nat) (l : list nat) : option dag :=
  match l with
  | [] => Some d
  | n :: l' => match rec_to_buf d n up with
               | Some d1 => put_news (Dag (d_ids d1) (upd_r (d_buf d1) n r_new)) up l'
               | None => None
               end
  end.
Fixpoint put_freeds (d : dag) (up : option nat) (l : list nat) : option dag :=
  match l with
  | [] => Some d
  | f :: l' => match rec_to_buf d f up with
               | Some d1 => put_freeds (Dag (d_ids d1) (upd_r (d_buf d1) f r_freed)) up l'
               | None => None
               end
  end.
Definition put_opt (d : dag) (b up : option nat) : option dag :=
  match b with Some x => rec_to_buf d x up | None => Some d end.

(** index_cp.cpp 326-398 process_txn_record. *)
Definition process (d : dag) (r : rec) : option dag :=
  match put_opt d (r_parent r) None with
  | Some d1 =>
    match put_opt d1 (r_child r) (r_parent r) with
    | Some d2 =>
      let up := match r_child r with Some c => Some c | None => r_parent r end in
      match put_news d2 up (r_news r) with
      | Some d3 => put_freeds d3 up (r_freeds r)
      | None => None
      end
    | None => None
    end
  | None => None
  end.
Fixpoint process_all (d : dag) (j : list rec) : option dag :=
  match j with
  | [] => Some d
  | r :: j' => match process d r with Some d1 => process_all d1 j' | None => None end
  end.

(** index_cp.cpp 254-257: the walk over freed up buffers.  [None]: it does not end within
    [fuel] steps. *)
Fixpoint skip_freed (fuel : nat) (m : nat -> rbuf) (u : option nat) : option (option nat) :=
  match u with
  | None => Some None
  | Some x => if rb_freed (m x)
              then match fuel with O => None | S f => skip_freed f m (rb_up (m x)) end
              else Some (Some x)
  end.
(** index_cp.cpp 251-265 modifyBuffer. *)
Definition modify (d : dag) (b : nat) : option dag :=
  match skip_freed (length (d_ids d)) (d_buf d) (rb_up (d_buf d b)) with
  | Some r =>
    if same r (rb_up (d_buf d b)) then Some d
    else match r with
         | Some x => Some (Dag (d_ids d) (relink (d_buf d) b x))
         | None => None
         end
  | None => None
  end.
Fixpoint modify_all (d : dag) (order : list nat) : option dag :=
  match order with
  | [] => Some d
  | b :: l => match modify d b with Some d1 => modify_all d1 l | None => None end
  end.

(** index_cp.cpp 281-320 sanityCheck: the release assertions on one buffer. *)
Definition sane (ismeta : nat -> bool) (m : nat -> rbuf) (b : nat) : bool :=
  match rb_up (m b) with
  | Some u => negb (rb_freed (m u)) && negb (rb_new (m u)) && negb (ismeta b) && negb (Z.eqb (rb_wait (m u)) 0)
  | None => true
  end && (negb (rb_freed (m b)) || Z.eqb (rb_wait (m b)) 0).

(** index_cp.cpp 232-324.  [order]: the map is walked in the order of block ids. *)
Definition rebuild (ismeta : nat -> bool) (j : list rec) (order : list nat) : option dag :=
  match process_all empty j with
  | Some d => match modify_all d order with
              | Some d' => if forallb (sane ismeta (d_buf d')) order then Some d' else None
              | None => None
              end
  | None => None
  end.
