(** * Specification vocabulary for the variable size allocator (C12, C53). *)
From Coq Require Import NArith List Bool.
From Verif Require Import SlabModel SlabSpec ExtSpec BitmapModel VarsizeModel.
Import ListNotations.
Local Open Scope N_scope.

(** What the external bit scan is assumed to do: the answer is a run of clear bits of the
    bitmap, inside the asked range, of an allowed length; a request for at least one bit
    skips no clear bit. *)
Definition scan_ok (total : N) (scan : scanner) : Prop :=
  forall bm cur en minb maxb s n, scan bm cur en minb maxb = (s, n) -> 0 < minb -> minb <= maxb ->
    (n = 0 \/ (cur <= s /\ s + n <= en + 1 /\ s + n <= total /\ minb <= n <= maxb /\
               forall b, s <= b < s + n -> bm b = false)) /\
    (minb = 1 -> forall b, cur <= b <= en -> b < total -> n = 0 \/ b < s -> bm b = true).

(** Every block of the chunk is in exactly one place: in the free-block cache, held by the
    user of the allocator ([live]), or clear in the bitmap.  No block number outside the
    chunk appears anywhere.  The counter counts the held blocks. *)
Definition one_place (cf : vcfg) (s : vst) (live : list ext) : Prop :=
  (forall b, b < vc_total cf ->
     (holders b (cached (v_cache s)) + holders b live + (if v_bm s b then 0 else 1) = 1)%nat) /\
  (forall b, vc_total cf <= b -> (holders b (cached (v_cache s)) + holders b live = 0)%nat) /\
  v_alloced s = blocks live.

(** Well formed configuration and cache; at most 16 slabs (the code's table ends there). *)
Definition sane (cf : vcfg) (s : vst) : Prop :=
  0 < vc_total cf /\ 0 < vc_bpp cf /\ wf (v_cache s) /\ (length (v_cache s) <= 16)%nat /\
  (vc_slabs cf = true -> v_cache s <> []) /\ v_start s < num_portions cf.

(** Sweeps in which the session has a slot for every slab. *)
Definition legal_sweep (s : vst) (w : sweep) : Prop :=
  v_cache s <> [] /\ length (sw_rq w) = length (v_cache s).

(** Requests: at least one block, a 16-bit count, smallest piece between 1 and the count. *)
Definition legal_alloc (nblks : N) (h : hints) : Prop :=
  0 < nblks < 65536 /\ 1 <= h_min h <= nblks.

(** ** Histories.  The user holds extents; it may give one back whole, or cut one in two. *)
Inductive vop :=
| VAlloc (nblks : N) (h : hints) (tries : list (list sweep))
| VFree (i : nat)
| VCut (i : nat) (k : N)
| VSweep (ws : list sweep).

Definition drop_nth {A} (i : nat) (l : list A) : list A := firstn i l ++ skipn (S i) l.

Definition vstep (cf : vcfg) (scan : scanner) (s : vst) (live : list ext) (o : vop) : option (vst * list ext) :=
  match o with
  | VAlloc nblks h tries =>
      match alloc cf scan s nblks h tries with
      | None => None
      | Some (s', VSuccess, out) | Some (s', VPartial, out) => Some (s', out ++ live)
      | Some (s', _, _) => Some (s', live)
      end
  | VFree i => match nth_error live i with
               | None => Some (s, live)
               | Some x => match free cf s [x] with
                           | None => None
                           | Some s' => Some (s', drop_nth i live)
                           end
               end
  | VCut i k => match nth_error live i with
                | None => Some (s, live)
                | Some (a, n) => if k <? n then Some (s, (a, k) :: (a + k, n - k) :: drop_nth i live) else Some (s, live)
                end
  | VSweep ws => match do_sweep cf scan s ws with
                 | None => None
                 | Some s' => Some (s', live)
                 end
  end.

Fixpoint vrun (cf : vcfg) (scan : scanner) (s : vst) (live : list ext) (ops : list vop) : option (vst * list ext) :=
  match ops with
  | [] => Some (s, live)
  | o :: r => match vstep cf scan s live o with
              | None => None
              | Some (s', live') => vrun cf scan s' live' r
              end
  end.

Definition legal_vop (s : vst) (o : vop) : Prop :=
  match o with
  | VAlloc nblks h tries => legal_alloc nblks h /\ Forall (Forall (legal_sweep s)) tries
  | VFree _ | VCut _ _ => True
  | VSweep ws => Forall (legal_sweep s) ws
  end.
