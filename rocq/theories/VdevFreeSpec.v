(** * Specification vocabulary for deferred frees (C11). *)
From Coq Require Import NArith List Bool.
From Verif Require Import ExtSpec VdevFreeModel.
Import ListNotations.
Local Open Scope N_scope.

(** The user's view: extents it owns; every free ever made with its checkpoint; the
    checkpoints whose bitmap write is durable; how far each flush has got. *)
Record hist := Hist { h_dev : vst; h_owned : list ext; h_freed : list (nat * ext); h_durable : list nat;
                      h_left : nat -> option (list flush_part) }.

Definition set_left (f : nat -> option (list flush_part)) (c : nat) (v : option (list flush_part)) :=
  fun k => if Nat.eqb k c then v else f k.

Inductive step : hist -> hist -> Prop :=
| s_alloc : forall h x, (forall b, inside b x = true -> v_avail (h_dev h) b = true) ->
    step h (Hist (Vst (allocator_take (v_avail (h_dev h)) x) (v_ctx (h_dev h)) (v_cur (h_dev h)))
                 (x :: h_owned h) (h_freed h) (h_durable h) (h_left h))
  (* free some owned extents, in a checkpoint whose flush has not begun *)
| s_free : forall h l1 l2 xs c, h_owned h = l1 ++ xs ++ l2 -> h_left h c = None ->
    step h (Hist (free_blk false (h_dev h) (Some c) false xs) (l1 ++ l2)
                 (map (pair c) xs ++ h_freed h) (h_durable h) (h_left h))
  (* free at once *)
| s_free_now : forall h l1 l2 xs c, h_owned h = l1 ++ xs ++ l2 ->
    step h (Hist (free_blk false (h_dev h) c true xs) (l1 ++ l2) (h_freed h) (h_durable h) (h_left h))
| s_switch : forall h, step h (Hist (Vst (v_avail (h_dev h)) (v_ctx (h_dev h)) (S (v_cur (h_dev h))))
                 (h_owned h) (h_freed h) (h_durable h) (h_left h))
  (* the flush of a checkpoint begins, and goes on part by part *)
| s_flush_begin : forall h c, (c < v_cur (h_dev h))%nat -> h_left h c = None ->
    step h (Hist (h_dev h) (h_owned h) (h_freed h) (h_durable h) (set_left (h_left h) c (Some cp_flush_parts)))
| s_flush_part : forall h c p r, h_left h c = Some (p :: r) ->
    step h (Hist (flush_part_step (h_dev h) c p) (h_owned h) (h_freed h)
                 (match p with FlushBitmaps => c :: h_durable h | ReleaseFrees => h_durable h end)
                 (set_left (h_left h) c (Some r))).

Definition init (total : N) : hist :=
  Hist (Vst (fun b => b <? total) (fun _ => []) 0) [] [] [] (fun _ => None).
Inductive reach (total : N) : hist -> Prop :=
| r_init : reach total (init total)
| r_step : forall h h', reach total h -> step h h' -> reach total h'.
