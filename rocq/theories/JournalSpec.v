(** * What a journal descriptor is supposed to do.
    Ranges of log space are (offset, size).  The file is what a reader expects at each
    offset: the last byte written there.  Nothing here depends on how chunks are found. *)
From Coq Require Import NArith ZArith List Bool Sorting.Sorted.
From Verif Require Import JournalModel.
Import ListNotations.
Local Open Scope Z_scope.

(** ** Vocabulary *)
Definition before (a b : Z * Z) : Prop := fst a + snd a <= fst b.
(** Every range ends before all later ones start. *)
Definition increasing (l : list (Z * Z)) : Prop := StronglySorted before l.
Definition within (x : Z) (r : Z * Z) : Prop := fst r <= x < fst r + snd r.
(** First and last byte fall in the same chunk-size slot of the log space. *)
Definition one_chunk (cs : Z) (r : Z * Z) : Prop := fst r / cs = (fst r + snd r - 1) / cs.

(** ** A user of the descriptor *)
Record ghost := Ghost { g_ranges : list (Z * Z); g_pending : list (Z * Z); g_file : Z -> N }.
Record world := World { w_d : jdesc; w_pv : privs; w_mem : media }.

Inductive op :=
| OAlloc (sz : Z) (nid : N)          (* reserve; the pool would hand out chunk nid *)
| OWrite (x : Z) (data : list N)     (* write a reserved range *)
| OTrunc (t : Z) (now : N)           (* truncate at time now *)
| OOther (c : N) (p : priv) (o : Z) (data : list N)  (* someone else uses another chunk *)
| ORestart (all : list N) (t : Z).   (* restart; chunks that exist in their order; tail found *)

Definition step (cs : Z) (ld : N) (w : world) (o : op) : option (world * option Z) :=
  match o with
  | OAlloc sz nid =>
    match alloc cs ld (w_d w) (w_pv w) sz nid with
    | None => None
    | Some (d, ws, x) => Some (World d (put_privs (w_pv w) ws) (w_mem w), Some x)
    end
  | OWrite x data =>
    match pwrite cs (w_d w) (Z.of_nat (length data)) x with
    | None => None
    | Some (d, (c, off)) => Some (World d (w_pv w) (write_media (w_mem w) c off data), None)
    end
  | OTrunc t now =>
    match truncate cs ld (w_d w) (w_pv w) t now with
    | None => None
    | Some (d, ws, _) => Some (World d (put_privs (w_pv w) ws) (w_mem w), Some (j_start d))
    end
  | OOther c p off data => Some (World (w_d w) (put_priv (w_pv w) (c, p)) (write_media (w_mem w) c off data), None)
  | ORestart all t =>
    match restart cs ld (w_pv w) all (j_start (w_d w)) t with
    | None => None
    | Some d => Some (World d (w_pv w) (w_mem w), None)
    end
  end.

Definition drop_range (x : Z) (l : list (Z * Z)) : list (Z * Z) := filter (fun r => negb (fst r =? x)) l.

(** What the user knows after the call. *)
Definition gstep (g : ghost) (o : op) (ans : option Z) : ghost :=
  match o, ans with
  | OAlloc sz _, Some x => Ghost (g_ranges g ++ [(x, sz)]) (g_pending g ++ [(x, sz)]) (g_file g)
  | OWrite x data, _ => Ghost (g_ranges g) (drop_range x (g_pending g)) (put_bytes (g_file g) x data)
  | ORestart _ _, _ => Ghost (fold_left (fun l r => drop_range (fst r) l) (g_pending g) (g_ranges g)) [] (g_file g)
  | _, _ => g
  end.

(** What the user may do.
    - The pool hands out a chunk that is not in use, made for the pool (id 0 excluded).
    - A write fills a range reserved and not yet written.
    - Truncation is to the start or the end of a range handed out, not below the current
      start, and no reserved range below it is still to be written.
    - Other users only touch chunks this descriptor does not hold, and do not make them
      heads of this log device.
    - At a restart at most the last range is unwritten; the tail found is the end of the
      log without it. *)
Definition legal (cs : Z) (ld : N) (w : world) (g : ghost) (o : op) : Prop :=
  let d := w_d w in
  match o with
  | OAlloc sz nid => 0 < sz < cs /\ nid <> 0%N /\ ~ In nid (j_chunks d) /\
                     exists created, (0 < created)%N /\ w_pv w nid = priv_fresh cs created
  | OWrite x data => In (x, Z.of_nat (length data)) (g_pending g)
  | OTrunc t now => j_start d <= t /\ (0 < now)%N /\
                    (exists r, In r (g_ranges g) /\ (t = fst r \/ t = fst r + snd r)) /\
                    (forall r, In r (g_pending g) -> t <= fst r)
  | OOther c p _ _ => ~ In c (j_chunks d) /\ ~ (pv_head p = true /\ pv_logdev p = ld)
  | ORestart all t => NoDup all /\ (forall c, In c (j_chunks d) -> In c all) /\
                      match g_pending g with
                      | [] => t = j_start d + j_wsz d + j_resv d
                      | [r] => t = fst r /\ exists l, g_ranges g = l ++ [r]
                      | _ => False
                      end
  end.

Fixpoint legal_run (cs : Z) (ld : N) (w : world) (g : ghost) (ops : list op) : Prop :=
  match ops with
  | [] => True
  | o :: r => legal cs ld w g o /\
              match step cs ld w o with
              | None => True
              | Some (w', ans) => legal_run cs ld w' (gstep g o ans) r
              end
  end.

Fixpoint run (cs : Z) (ld : N) (w : world) (g : ghost) (ops : list op) : option (world * ghost) :=
  match ops with
  | [] => Some (w, g)
  | o :: r => match step cs ld w o with
              | None => None
              | Some (w', ans) => run cs ld w' (gstep g o ans) r
              end
  end.

(** A new descriptor; no chunk is marked as head of this log device yet. *)
Definition start_world (pv : privs) (m : media) : world := World fresh pv m.
Definition start_ghost : ghost := Ghost [] [] (fun _ => 0%N).
Definition no_head (ld : N) (pv : privs) : Prop := forall c, ~ (pv_head (pv c) = true /\ pv_logdev (pv c) = ld).

(** The byte a reader gets at log offset x. *)
Definition read_byte (cs : Z) (w : world) (x : Z) : option N :=
  match pread cs (w_d w) 1 x with
  | Some (c, o, n) => if n =? 1 then Some (w_mem w c o) else None
  | None => None
  end.
Definition where_is (cs : Z) (w : world) (x : Z) : option (N * Z) :=
  match offset_to_chunk cs (w_d w) x with Some (c, _, o) => Some (c, o) | None => None end.

(** Offsets at or after the start that were handed out and written. *)
Definition written (g : ghost) (x : Z) : Prop :=
  exists r, In r (g_ranges g) /\ ~ In r (g_pending g) /\ within x r.
