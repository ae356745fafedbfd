(** * Specification vocabulary for the append allocator (C07, C08). *)
From Coq Require Import NArith List Bool Permutation.
From Verif Require Import ExtSpec AppendModel.
Import ListNotations.
Local Open Scope N_scope.

(** The extents follow each other without gap from [start] to [stop]. *)
Fixpoint chain (start : N) (l : list ext) (stop : N) : Prop :=
  match l with
  | [] => start = stop
  | x :: r => fst x = start /\ chain (start + snd x) r stop
  end.

(** A user of one allocator without crashes. *)
Inductive aop := UAlloc (n : N) (reserved : option N) | UFree (len : N) | UCommit (x : ext) | UCheckpoint.

Definition astep (s : ast) (o : aop) : ast * list ext :=
  match o with
  | UAlloc n r => match alloc s n r with
                  | (s', AllocOk st len) => (s', [(st, len)])
                  | (s', _) => (s', [])
                  end
  | UFree len => (free s len, [])
  | UCommit x => (reserve_on_disk s (fst x) (snd x), [])
  | UCheckpoint => (cp_flush s, [])
  end.
Fixpoint arun (s : ast) (ops : list aop) : ast * list ext :=
  match ops with
  | [] => (s, [])
  | o :: r => let (s1, l1) := astep s o in let (s2, l2) := arun s1 r in (s2, l1 ++ l2)
  end.

(** The largest end of the extents, at least [m]. *)
Definition max_end (m : N) (l : list ext) : N := fold_right (fun x a => N.max (fst x + snd x) a) m l.

(** A user with crashes.  [h_out]: extents allocated and not committed.
    [h_recent]: committed since the last checkpoint (these are in the user's journal).
    [h_old]: committed before the last checkpoint. *)
Record hist := Hist { h_ast : ast; h_out : list ext; h_recent : list ext; h_old : list ext }.
Inductive hop :=
| HAlloc (n : N) (reserved : option N)
| HCommit (x : ext)                 (* commit an extent it holds *)
| HFree (len : N)
| HCheckpoint
| HCrash (journal : list ext).      (* restart and replay the journal *)

Fixpoint remove_ext (x : ext) (l : list ext) : option (list ext) :=
  match l with
  | [] => None
  | y :: r => if (fst x =? fst y) && (snd x =? snd y) then Some r
              else match remove_ext x r with Some r' => Some (y :: r') | None => None end
  end.

(** The journal holds every recent commit; it may also hold older ones, in any
    order and repeated. *)
Definition journal_ok (s : hist) (j : list ext) : Prop :=
  (forall x, In x (h_recent s) -> In x j) /\ (forall x, In x j -> In x (h_recent s ++ h_old s)).

Inductive hstep : hist -> hop -> hist -> Prop :=
| hs_alloc_ok : forall s n r a st len, alloc (h_ast s) n r = (a, AllocOk st len) ->
    hstep s (HAlloc n r) (Hist a ((st, len) :: h_out s) (h_recent s) (h_old s))
| hs_alloc_no : forall s n r a, alloc (h_ast s) n r = (a, SpaceFull) \/ alloc (h_ast s) n r = (a, AllocFailed) ->
    hstep s (HAlloc n r) (Hist a (h_out s) (h_recent s) (h_old s))
| hs_commit : forall s x rest, remove_ext x (h_out s) = Some rest ->
    hstep s (HCommit x) (Hist (reserve_on_disk (h_ast s) (fst x) (snd x)) rest (x :: h_recent s) (h_old s))
| hs_free : forall s len, hstep s (HFree len) (Hist (free (h_ast s) len) (h_out s) (h_recent s) (h_old s))
| hs_cp : forall s, hstep s HCheckpoint (Hist (cp_flush (h_ast s)) (h_out s) [] (h_recent s ++ h_old s))
| hs_crash : forall s j, journal_ok s j ->
    hstep s (HCrash j) (Hist (replay (restart (h_ast s)) j) [] (h_recent s) (h_old s)).

Inductive hreach (total : N) : hist -> Prop :=
| hr_init : hreach total (Hist (fresh_alloc total) [] [] [])
| hr_step : forall s o s', hreach total s -> hstep s o s' -> hreach total s'.
