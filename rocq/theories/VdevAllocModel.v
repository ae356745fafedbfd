(** * Model of VirtualDev::alloc_blks: which chunk an allocation goes to.
    Source: src/lib/device/virtual_dev.cpp:216-341, round_robin_chunk_selector.cpp:20-33,
    src/lib/blkalloc/blk.cpp:79-91 (MultiBlkId::add), varsize_blk_allocator.cpp:398-449.

    One call at a time (a selector index belongs to one thread).  Left out: metrics, the
    prerelease flip, an application's own chunk selector, the hint of a chunk. *)
From Coq Require Import Arith NArith List Bool.
From Verif Require Import SlabModel ExtSpec BitmapModel VarsizeModel AppendModel.
Import ListNotations.
Local Open Scope N_scope.

(** BlkAllocStatus; every status that is neither SUCCESS nor PARTIAL is [Fail]. *)
Inductive status := Success | Partial | Fail.

(** An out MultiBlkId: chunk and pieces. *)
Record out := Out { o_chunk : N; o_pieces : list ext }.
Definition none : out := Out 0 [].

Section Vdev.
(** The allocator of a chunk.  [alc a nblks l]: allocate with the pieces [l] already in the id that
    is handed in; the pieces in it at return.  [None]: a failed assert or undefined. *)
Variable A : Type.
Variable alc : A -> N -> list ext -> option (A * status * list ext).
Variable fre : A -> list ext -> option A.
(** hints.partial_alloc_ok, hints.can_look_for_other_chunk. *)
Variable pok look : bool.
(** The chunks of the selector, in the order they were added. *)
Variable chunks : list N.

(** MultiBlkId::add of the pieces behind those of [o]: RELEASE_ASSERT that the chunk is the same. *)
Definition place (o : out) (c : N) (p : list ext) : option out :=
  if Nat.eqb (length p) (length (o_pieces o)) then Some (Out (o_chunk o) p)
  else match o_pieces o with
       | [] => Some (Out c p)
       | _ => if o_chunk o =? c then Some (Out c p) else None
       end.

Definition upd (st : N -> A) (c : N) (a : A) : N -> A := fun c' => if c' =? c then a else st c'.

(** virtual_dev.cpp:318-341, alloc_blks_from_chunk. *)
Definition from_chunk (st : N -> A) (n : N) (o : out) (c : N) : option ((N -> A) * status * out) :=
  match alc (st c) n (o_pieces o) with
  | None => None
  | Some (a, s, p) =>
      match place o c p with
      | None => None
      | Some o' =>
          match s, pok with
          | Partial, false => match fre a (o_pieces o') with
                              | None => None
                              | Some a' => Some (upd st c a', Fail, none)
                              end
          | _, _ => Some (upd st c a, s, o')
          end
      end
  end.

(** round_robin_chunk_selector.cpp:24-27; no chunk: outside the vector. *)
Definition select (idx : nat) : option (N * nat) :=
  let i := if (length chunks <=? idx)%nat then 0%nat else idx in
  match nth_error chunks i with Some c => Some (c, S i) | None => None end.

(** virtual_dev.cpp:252-265; [k] attempts left after this one.  m_total_chunk_num is the number of chunks added
    (:118-129), as is the length of the selector's vector. *)
Definition final (s : status) : bool :=
  match s with Success => true | Partial => pok | Fail => false end.
Fixpoint attempts (k : nat) (st : N -> A) (idx : nat) (n : N) (o : out)
  : option ((N -> A) * nat * status * out) :=
  match select idx with
  | None => None
  | Some (c, idx') =>
      match from_chunk st n o c with
      | None => None
      | Some (st', s, o') =>
          if final s || negb look then Some (st', idx', s, o')
          else match k with
               | S k' => attempts k' st' idx' n o'
               | O => Some (st', idx', s, o')
               end
      end
  end.
Definition alloc_blks (st : N -> A) (idx : nat) (n : N) (o : out) := attempts (Nat.pred (length chunks)) st idx n o.

(** :216-236, alloc_n_contiguous_blks: the id is handed out if there is something. *)
(** :284-316, alloc_blks with a vector; [pok] is true then.  [fuel]: every round gets a block.
    pop_back of an empty vector is undefined. *)
Fixpoint many (fuel : nat) (st : N -> A) (idx : nat) (n : N) (got : list (N * ext))
  : option ((N -> A) * nat * status * list (N * ext)) :=
  match fuel with
  | O => None
  | S f =>
      match alloc_blks st idx n none with
      | None => None
      | Some (st', idx', Fail, _) =>
          match got with
          | [] => None
          | _ => Some (st', idx', Fail, removelast got)
          end
      | Some (st', idx', s, o) =>
          let got' := got ++ map (pair (o_chunk o)) (o_pieces o) in
          let b := blocks (o_pieces o) in
          if n <=? b then Some (st', idx', s, got') else many f st' idx' (n - b) got'
      end
  end.
Definition alloc_vec (st : N -> A) (idx : nat) (n : N) := many (S (N.to_nat n)) st idx n [].
End Vdev.

Arguments alloc_blks {A}. Arguments alloc_vec {A}. Arguments many {A}. Arguments attempts {A}.
Arguments from_chunk {A}. Arguments upd {A}.

(** ** The allocators *)
(** append_blk_allocator.cpp:70-95; the out id is assigned. *)
Definition append_alc (a : ast) (n : N) (_ : list ext) : option (ast * status * list ext) :=
  match AppendModel.alloc a n None with
  | (a', AllocOk s l) => Some (a', Success, [(s, l)])
  | (a', _) => Some (a', Fail, [])
  end.
Definition append_fre (a : ast) (p : list ext) : option ast := Some (AppendModel.free a (blocks p)).

(** varsize_blk_allocator.cpp:398-449 with pieces [stale] in the id at the call: VarsizeModel.alloc,
    but pieces are put behind [stale], and a failure frees [stale] as well. *)
Definition varsize_onto (cf : vcfg) (scan : scanner) (h : hints) (tries : list (list sweep))
  (s : vst) (nblks : N) (stale : list ext) : option (vst * status * list ext) :=
  let slab :=
    if vc_slabs cf && (nblks <=? highest_slab s)
    then slab_attempts cf scan (slab_req s nblks h) h tries (v_bm s) (v_cache s) stale
    else Some (v_bm s, v_cache s, stale) in
  match slab with
  | None => None
  | Some (bm1, c1, out1) =>
    let got := blocks out1 - blocks stale in
    if nblks <=? got then Some (VSt bm1 c1 (v_alloced s + got) (v_start s), Success, out1)
    else
      let '(bm2, rem, out2, p) := alloc_direct cf scan (nblks - got) h bm1 (v_start s) out1 in
      let got2 := got + (nblks - got - rem) in
      if got2 =? nblks then Some (VSt bm2 c1 (v_alloced s + got2) p, Success, out2)
      else if negb (got2 =? 0) && h_partial h then Some (VSt bm2 c1 (v_alloced s + got2) p, Partial, out2)
      else match free_direct bm2 out2 with
           | None => None
           | Some bm3 => Some (VSt bm3 c1 (v_alloced s) p, Fail, out2)
           end
  end.
