(** * Specification vocabulary for chunks of a physical device. *)
From Coq Require Import NArith List Bool.
From Verif Require Import ExtSpec PdevModel.
Import ListNotations.
Local Open Scope N_scope.

(** Byte ranges that are not empty, lie in the data area and do not meet one another. *)
Fixpoint apart (l : list ext) : Prop :=
  match l with [] => True | x :: r => (forall y, In y r -> ~ overlap x y) /\ apart r end.
Definition in_data_area (cf : pcfg) (x : ext) : Prop := 0 < snd x /\ p_start cf <= fst x /\ fst x + snd x <= p_end cf.
Definition ranges (l : list chunk) : list ext := map (fun c => ci_ext (snd c)) l.
Definition placed_well (cf : pcfg) (l : list chunk) : Prop :=
  Forall (in_data_area cf) (ranges l) /\ apart (ranges l) /\ NoDup (map fst l).

(** A free range of [size] bytes exists. *)
Definition has_gap (cf : pcfg) (l : list chunk) (size : N) : Prop :=
  exists s, p_start cf <= s /\ s + size <= p_end cf /\ forall x, In x (ranges l) -> ~ overlap (s, size) x.

(** Requested properties of made chunks. *)
Definition req (c : chunk) : N * N * N := (snd (ci_ext (snd c)), ci_vdev (snd c), ci_id (snd c)).

(** [ts]: starts of ranges of [size] bytes, in order, apart from each other and from the
    chunks [l], inside the data area. *)
Fixpoint row (cf : pcfg) (lo size : N) (l : list chunk) (ts : list N) : Prop :=
  match ts with
  | [] => True
  | t :: r => lo <= t /\ t + size <= p_end cf /\ (forall x, In x (ranges l) -> ~ overlap (t, size) x) /\ row cf (t + size) size l r
  end.

(** Free slots of a list of chunks. *)
Definition slots_free (cf : pcfg) (l : list chunk) (ss : list N) : Prop :=
  NoDup ss /\ Forall (fun s => s < p_nslots cf /\ ~ In s (map fst l)) ss.

(** What a restart finds in a slot: the range, vdev, id and ordinal of a chunk. *)
Definition ident (i : cinfo) : ext * N * N * N := (ci_ext i, ci_vdev i, ci_id i, ci_ord i).
Definition found (d : pdisk) (s : N) : option (ext * N * N * N) :=
  if d_bm d s then option_map ident (d_slot d s) else None.
Definition held (l : list chunk) (s : N) : option (ext * N * N * N) :=
  option_map (fun c => ident (snd c)) (find (fun c => fst c =? s) l).

(** ** Histories.  An operation runs to its end, or the machine stops after its first
    [k] superblock writes and restarts. *)
Inductive pop :=
| PCreates (vdev size : N) (ids : list N)
| PCreate (id vdev size ord : N)
| PRemove (slot : N)
| PRemoves (slots : list N)
| PRestart.

Definition handles (m : pmem) (slots : list N) : list chunk :=
  flat_map (fun s => filter (fun c => fst c =? s) (m_chunks m)) slots.

Definition run_op (cf : pcfg) (m : pmem) (o : pop) : option (pmem * list wr) :=
  match o with
  | PCreates vdev size ids => option_map (fun r => (fst (fst r), snd (fst r))) (create_chunks cf m vdev size ids)
  | PCreate id vdev size ord => option_map (fun r => (fst (fst r), snd (fst r))) (create_chunk cf m id vdev size ord)
  | PRemove s => Some (do_removes m (handles m [s]))
  | PRemoves ss => Some (do_removes m (handles m ss))
  | PRestart => Some (m, [])
  end.

Definition pstep (cf : pcfg) (st : pmem * pdisk) (oc : pop * option nat) : option (pmem * pdisk) :=
  match run_op cf (fst st) (fst oc) with
  | None => None
  | Some (m', ws) =>
    match fst oc, snd oc with
    | PRestart, _ => option_map (fun m2 => (m2, snd st)) (load_chunks cf (snd st))
    | _, None => Some (m', wr_all (snd st) ws)
    | _, Some k => let d := wr_all (snd st) (firstn k ws) in option_map (fun m2 => (m2, d)) (load_chunks cf d)
    end
  end.

(** Sizes are positive; a single create is only called when a free range exists; a list
    of removals names each chunk once. *)
Definition legal_pop (cf : pcfg) (m : pmem) (o : pop) : Prop :=
  match o with
  | PCreates _ size _ => 0 < size
  | PCreate _ _ size _ => 0 < size /\ has_gap cf (m_chunks m) size
  | PRemoves ss => NoDup ss
  | _ => True
  end.

Inductive phist (cf : pcfg) (junk : N -> option cinfo) : pmem * pdisk -> Prop :=
| ph_format : phist cf junk (formatted junk)
| ph_step : forall st oc, phist cf junk st -> legal_pop cf (fst st) (fst oc) ->
    forall st', pstep cf st oc = Some st' -> phist cf junk st'.
