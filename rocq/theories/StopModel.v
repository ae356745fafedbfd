(** * Model of the shutdown of the services: counts of calls under way, and stop().
    Source: the pairs is_stopping / incr_pending_request_num / decr_pending_request_num and
    stop() in src/lib/blkdata_svc/blkdata_service.cpp 81-334, src/lib/logstore/log_store_service.cpp
    122-186, 215-226, 284-341, src/lib/logstore/log_dev.cpp 136-141, 289-350, 387-400, 437-465,
    615-700, 726-778, src/lib/logstore/log_store.cpp 48-145, 208-289, 350-410,
    src/lib/index/index_service.cpp 126-202, include/homestore/index/index_table.hpp 44-62, 135-200,
    src/lib/replication/repl_dev/solo_repl_dev.cpp 42-93, 95-170, 226-245,
    src/lib/replication/service/raft_repl_service.cpp 219-226, 697-740.

    A path of a call through the code is a list of the things it does to these counts, and
    threads run such lists, interleaved at every one of them.  What a call does to the rest of
    the component is one mark.  Locks, and so waits for them, are left out, as are the fixed
    sleeps in stop() (BlkDataService waits 3 seconds, which bounds nothing) and exceptions
    other than those written in the code.  The count is uint64; here it is in Z. *)
From Coq Require Import ZArith List Bool Lia.
Import ListNotations.
Open Scope Z_scope.

Inductive note := Accepted (id : nat) | Returned (id : nat).
Inductive act :=
| Chk (c n : nat)  (* if (is_stopping()) return: of component [c], past the next [n] *)
| Inc (c : nat)    (* incr_pending_request_num *)
| Dec (c : nat)    (* decr_pending_request_num *)
| Use (c : nat)    (* touches what stop() and the destructor take away *)
| Fork (n : nat)   (* the next [n] run later, on their own: a callback *)
| Note (x : note). (* seen by the caller *)

Definition upd {A} (f : nat -> A) (c : nat) (v : A) : nat -> A := fun d => if Nat.eqb d c then v else f d.

(** [ret c]: stop() of the component has found no request pending and goes on to take it down;
    [bad]: the components touched after that. *)
Record st := St { stp : nat -> bool; pnd : nat -> Z; ret : nat -> bool; thr : list (list act); bad : list nat; out : list note }.
Definition init : st := St (fun _ => false) (fun _ => 0) (fun _ => false) [] [] [].

Inductive ev :=
| ENew (l : list act) (* a call *)
| ERun (i : nat)      (* the next step of thread [i] *)
| EStop (c : nat)     (* stop(): start_stopping() *)
| ERet (c : nat).     (* stop(): the loop finds no pending request *)

Definition put (t : list (list act)) (i : nat) (x : list (list act)) : list (list act) := firstn i t ++ x ++ skipn (S i) t.
Definition exec (s : st) (i : nat) (l : list act) : st :=
  match l with
  | [] => St (stp s) (pnd s) (ret s) (put (thr s) i []) (bad s) (out s)
  | Chk c n :: r => St (stp s) (pnd s) (ret s) (put (thr s) i [if stp s c then skipn n r else r]) (bad s) (out s)
  | Inc c :: r => St (stp s) (upd (pnd s) c (pnd s c + 1)) (ret s) (put (thr s) i [r]) (bad s) (out s)
  | Dec c :: r => St (stp s) (upd (pnd s) c (pnd s c - 1)) (ret s) (put (thr s) i [r]) (bad s) (out s)
  | Use c :: r => St (stp s) (pnd s) (ret s) (put (thr s) i [r]) (if ret s c then c :: bad s else bad s) (out s)
  | Fork n :: r => St (stp s) (pnd s) (ret s) (put (thr s) i [firstn n r; skipn n r]) (bad s) (out s)
  | Note x :: r => St (stp s) (pnd s) (ret s) (put (thr s) i [r]) (bad s) (x :: out s)
  end.
Definition step (s : st) (e : ev) : option st :=
  match e with
  | ENew l => Some (St (stp s) (pnd s) (ret s) (thr s ++ [l]) (bad s) (out s))
  | ERun i => match nth_error (thr s) i with Some l => Some (exec s i l) | None => None end
  | EStop c => Some (St (upd (stp s) c true) (pnd s) (ret s) (thr s) (bad s) (out s))
  | ERet c => if stp s c && (pnd s c =? 0) then Some (St (stp s) (pnd s) (upd (ret s) c true) (thr s) (bad s) (out s)) else None
  end.
Fixpoint run (s : st) (l : list ev) : option st :=
  match l with [] => Some s | e :: r => match step s e with Some s' => run s' r | None => None end end.

(** ** The paths of the calls *)
(** if (is_stopping()) return; incr; body; decr. *)
Definition guard (c : nat) (b : list act) : list act := Chk c (S (S (length b))) :: Inc c :: b ++ [Dec c].
Definition fork (b : list act) : list act := Fork (length b) :: b.
Definition many (n : nat) (b : list act) : list act := concat (repeat b n).

(** BlkDataService. *)
Definition DataSvc : nat := 0.
Definition d_alloc := guard DataSvc [Use DataSvc]. (* :231-251, 298-311 free_blk_now *)
Definition d_commit (n : nat) := guard DataSvc (many n [Use DataSvc]). (* :254-274 *)
(* :85-92: the read tracker is used again when the read is done *)
Definition d_io := [Use DataSvc] ++ fork [Use DataSvc].
Definition d_read1 := [Chk DataSvc 5; Inc DataSvc; Dec DataSvc] ++ d_io. (* :94-96, 129-131; a write of one piece, :166-169, 193-196, without the callback *)
Definition d_read (n : nat) := guard DataSvc (many n d_io). (* :97-110, 132-145; writes, :170-183, 197-210, without the callbacks *)
Definition d_alloc_write (w : list act) := guard DataSvc (d_alloc ++ w). (* :149-160 *)
Definition d_write_all (n : nat) (w : list act) := guard DataSvc (many n w). (* :212-226 *)
Definition d_free := guard DataSvc ([Use DataSvc] ++ fork [Use DataSvc]). (* :276-296 *)

(** LogDev. *)
Definition LogDv : nat := 2.
Definition v_append (id : nat) (f : list act) := guard LogDv (Use LogDv :: Note (Accepted id) :: f). (* :289-301; [f]: flush_if_necessary or nothing *)
Definition v_call := guard LogDv [Use LogDv]. (* :303-350 read, read_record_header, :387-400, 693-700, 726-742, 763-779 *)
Definition v_read_error := [Chk LogDv 2; Inc LogDv; Use LogDv]. (* :308-313, the read fails *)
Definition v_truncate := [Inc LogDv; Use LogDv; Dec LogDv]. (* :615-690, goes on when stopping *)
Definition v_flush := [Chk LogDv 4; Inc LogDv; Use LogDv; Dec LogDv; Use LogDv]. (* :437-461, flush() after the decrement *)
Definition v_flush_elsewhere := guard LogDv (fork v_flush). (* :440-445 *)

(** LogStoreService. *)
Definition LogSvc : nat := 1.
Definition l_call (b : list act) := guard LogSvc (Use LogSvc :: b). (* :145-157, 215-226, 284-295, 304-341 *)
Definition l_missing := [Chk LogSvc 2; Inc LogSvc; Use LogSvc]. (* :163-167 destroy_log_dev, :312-315 remove_log_store: no such log device *)

(** HomeLogStore. *)
Definition LogSt : nat := 3.
Definition s_write (id : nat) (f : list act) := guard LogSt (guard LogSt (Use LogSt :: v_append id f)). (* :48-83 *)
Definition s_append (id : nat) (f : list act) := guard LogSt (Use LogSt :: s_write id f ++ [Note (Returned id)]). (* :85-93, what write_async returns is not looked at *)
Definition s_write_and_flush (id : nat) (f : list act) := guard LogSt (Use LogSt :: s_write id f ++ [Use LogDv]). (* :107-113 *)
Definition s_wrong_thread := [Chk LogSt 2; Inc LogSt; Use LogSt]. (* :98-104 *)
Definition s_call (b : list act) := guard LogSt (Use LogSt :: b). (* :115-145, 208-280, 350-410 *)

(** IndexService, IndexTable. *)
Definition IdxSvc : nat := 4.
Definition IdxTbl : nat := 5.
Definition i_call := guard IdxSvc [Use IdxSvc]. (* index_service.cpp:126-202 *)
Definition t_call := guard IdxTbl [Use IdxTbl]. (* index_table.hpp:135-199 *)

(** SoloReplDev. *)
Definition Repl : nat := 6.
Definition r_call (b : list act) := guard Repl (Use Repl :: b). (* :95-114, 226-245 *)
Definition r_write (b : list act) := (* :116-153, the decrement in the callback *)
  Chk Repl (length b + 4) :: Inc Repl :: Use Repl :: b ++ fork [Dec Repl].
Definition r_mismatch (b : list act) := Chk Repl (length b + 2) :: Inc Repl :: Use Repl :: b. (* :136-139 *)

(** RaftReplService::gc_repl_devs counts before it looks (raft_repl_service.cpp:697-716). *)
Definition ReplSvc : nat := 7.
Definition g_gc := [Inc ReplSvc; Chk ReplSvc 1; Use ReplSvc; Dec ReplSvc].
Definition g_call := guard ReplSvc [Use ReplSvc]. (* :375-378 and others *)
