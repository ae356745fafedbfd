(** * Model of the data service: reading, writing and allocating scattered blocks.
    Source: src/lib/blkdata_svc/blkdata_service.cpp:69-258 and, below it,
    src/lib/device/virtual_dev.cpp:191-341, :385-440, :555-577, :782-786.
    sisl::sg_iterator is not in the repository; [next_iovs] takes the next bytes of a buffer
    list in order, cutting a buffer where needed.  The drive is a map from offsets to bytes
    and does what it is asked; requests of one call finish in any order (the theorems
    quantify over it).  The read tracker is ReadTrackModel.  is_stopping and the count of
    pending requests are left out. *)
From Coq Require Import NArith List Bool.
Import ListNotations.
Open Scope N_scope.

Definition nseq (b n : N) : list N := map (fun i => b + N.of_nat i) (seq 0 (N.to_nat n)).
(** Memory of the process, and the drives: drive, offset. *)
Notation mem := (N -> N) (only parsing).
Notation disk := (N * N -> N) (only parsing).
Notation iov := (N * N)%type.
(** A piece: chunk, first block, number of blocks. *)
Notation piece := (N * N * N)%type.

(** Block size, and where a chunk is: drive and start (virtual_dev.cpp:782-786). *)
Record env := Env { e_bs : N; e_chunk : N -> option (N * N) }.
(** :782-786 to_dev_offset; [None]: the chunk is not there. *)
Definition to_dev (e : env) (x : piece) : option (N * N) :=
  let '(c, b, _) := x in
  match e_chunk e c with Some (p, st) => Some (p, b * e_bs e + st) | None => None end.

(** sisl::sg_iterator::next_iovs; the iterator is what is left of the list. *)
Fixpoint next_iovs (sz : N) (l : list iov) : list iov * list iov :=
  match l with
  | [] => ([], [])
  | (b, n) :: r =>
    if sz =? 0 then ([], l)
    else if sz <? n then ([(b, sz)], (b + sz, n - sz) :: r)
    else let (t, q) := next_iovs (sz - n) r in ((b, n) :: t, q)
  end.

Definition set1 (d : disk) (a : N * N) (v : N) : disk := fun a' => if (fst a' =? fst a) && (snd a' =? snd a) then v else d a'.
(** A drive writes [bs] at an offset. *)
Fixpoint dwrite (d : disk) (p off : N) (bs : list N) : disk := match bs with [] => d | v :: r => dwrite (set1 d (p, off) v) p (off + 1) r end.
Definition dread (d : disk) (p off n : N) : list N := map (fun o => d (p, o)) (nseq off n).
Definition gather (m : mem) (l : list iov) : list N := flat_map (fun x => map m (nseq (fst x) (snd x))) l.
Definition set_mem (m : mem) (a v : N) : mem := fun a' => if a' =? a then v else m a'.
Fixpoint mwrite (m : mem) (a : N) (bs : list N) : mem := match bs with [] => m | v :: r => mwrite (set_mem m a v) (a + 1) r end.
Fixpoint scatter (m : mem) (l : list iov) (bs : list N) : mem :=
  match l with [] => m | (b, n) :: r => scatter (mwrite m b (firstn (N.to_nat n) bs)) r (skipn (N.to_nat n) bs) end.

(** A request to a drive: where, and the buffers. *)
Notation req := (N * N * list iov)%type.
Definition total (l : list iov) : N := fold_right (fun x n => snd x + n) 0 l.
Definition do_write (m : mem) (d : disk) (r : req) : disk := let '(p, off, l) := r in dwrite d p off (gather m l).
Definition do_read (d : disk) (m : mem) (r : req) : mem := let '(p, off, l) := r in scatter m l (dread d p off (total l)).
(** virtual_dev.cpp:385-404, :425-446, :555-577: one piece; [None] is the error. *)
Definition vreq (e : env) (x : piece) (l : list iov) : option req := match to_dev e x with Some (p, o) => Some (p, o, l) | None => None end.

(** blkdata_service.cpp:198-212 (write) and :134-146 (read): buffer list, scattered id. *)
Fixpoint sg_loop (e : env) (l : list iov) (xs : list piece) : list (option req) :=
  match xs with
  | [] => []
  | x :: r => let (t, q) := next_iovs (snd x * e_bs e) l in vreq e x t :: sg_loop e q r
  end.
Definition sg_reqs (e : env) (l : list iov) (xs : list piece) : list (option req) :=
  match xs with
  | [x] => [vreq e x l]                                   (* :194-197, :130-133 *)
  | _ => sg_loop e l xs
  end.
(** :169-186 (write) and :95-112 (read): one buffer. *)
Fixpoint buf_loop (e : env) (b : N) (xs : list piece) : list (option req) :=
  match xs with
  | [] => []
  | x :: r => let sz := snd x * e_bs e in vreq e x [(b, sz)] :: buf_loop e (b + sz) r
  end.
Definition buf_reqs (e : env) (b sz : N) (xs : list piece) : list (option req) :=
  match xs with
  | [x] => [vreq e x [(b, sz)]]                           (* :172, :98 *)
  | _ => buf_loop e b xs
  end.
(** blkalloc/blk.cpp:137-144: the count is sixteen bits. *)
Definition blk_count16 (xs : list piece) : N := fold_right (fun x n => snd x + n) 0 xs mod 2 ^ 16.
(** :216-231: one buffer list, many ids. *)
Fixpoint vec_reqs (e : env) (l : list iov) (ids : list (list piece)) : list (option req) :=
  match ids with
  | [] => []
  | xs :: r => let (t, q) := next_iovs (blk_count16 xs * e_bs e) l in sg_reqs e t xs ++ vec_reqs e q r
  end.
(** :69-79 collect_all_futures: an error if some request failed. *)
Definition all_ok (rs : list (option req)) : bool := forallb (fun r => match r with Some _ => true | None => false end) rs.
Definition issued (rs : list (option req)) : list req := flat_map (fun r => match r with Some q => [q] | None => [] end) rs.

(** ** Allocation *)
Inductive astatus := ASuccess | APartial | AFailed.
Definition astatus_eqb (a b : astatus) : bool := match a, b with ASuccess, ASuccess | APartial, APartial | AFailed, AFailed => true | _, _ => false end.
(** :235-246 alloc_blks; [valloc] is VirtualDev::alloc_blks for a number of blocks. *)
Definition alloc_blks (e : env) (valloc : N -> astatus * list piece) (size : N) : astatus * list piece :=
  valloc ((size / e_bs e) mod 2 ^ 16).                    (* :239 static_cast< blk_count_t > *)
(** :148-161 async_alloc_write: requests sent, if any. *)
Definition alloc_write (e : env) (valloc : N -> astatus * list piece) (l : list iov) : option (list piece * list (option req)) :=
  let (st, xs) := alloc_blks e valloc (total l) in
  if astatus_eqb st ASuccess then Some (xs, sg_reqs e l xs) else None.
(** virtual_dev.cpp:284-316 alloc_blks into a vector; [rs] are the answers of the calls to
    alloc_n_contiguous_blks, [out] the vector so far.  [None]: pop_back on an empty vector.
    The blocks handed out by the allocator are those of all answers but the last, failed one. *)
Fixpoint vec_alloc (rs : list (astatus * list piece)) (remain : N) (out : list piece) : option (astatus * list piece) :=
  match rs with
  | [] => Some (AFailed, out)                             (* not reached: the loop runs until done or failed *)
  | (AFailed, _) :: _ => match out with [] => None | _ => Some (AFailed, removelast out) end
  | (st, xs) :: r =>
    let n := blk_count16 xs in
    let remain' := if remain <? n then 0 else remain - n in
    if remain' =? 0 then Some (st, out ++ xs) else vec_alloc r remain' (out ++ xs)
  end.
