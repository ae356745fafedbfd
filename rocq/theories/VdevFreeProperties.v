(** Property C11: blocks freed in a checkpoint. *)
From Coq Require Import NArith List Lia.
From Verif Require Import ExtSpec VdevFreeModel VdevFreeSpec VdevFreeProofs.
Import ListNotations.
Local Open Scope N_scope.

(** C11: while the bitmap write of checkpoint [n] is not durable, an extent freed under
    [n] has no new owner and is not available to allocations. *)
Theorem c11_no_early_reuse : forall total h n x, reach total h -> In (n, x) (h_freed h) -> ~ In n (h_durable h) ->
  (forall y, In y (h_owned h) -> ~ overlap x y) /\
  (forall b, inside b x = true -> v_avail (h_dev h) b = false).
Proof. exact c11_lemma. Qed.
Print Assumptions c11_no_early_reuse.

(** C11: after the write its blocks become available. *)
Theorem c11_released_after_write : forall total h n x b, reach total h -> h_left h n = Some [ReleaseFrees] ->
  In (n, x) (h_freed h) -> inside b x = true ->
  exists h', step h h' /\ h_left h' n = Some [] /\ v_avail (h_dev h') b = true.
Proof. exact c11_release_lemma. Qed.
Print Assumptions c11_released_after_write.

(** C11: and no block ever has two owners. *)
Theorem c11_single_owner : forall total h, reach total h ->
  forall b, (holders b (h_owned h) + (if v_avail (h_dev h) b then 1 else 0) <= 1)%nat.
Proof. exact c11_owner_lemma. Qed.
Print Assumptions c11_single_owner.

(** A history: two extents; the first is freed under checkpoint 0; the checkpoint is
    switched and its flush begins; before the write the blocks are held back. *)
Example c11_ex : exists h, reach 10 h /\ In (0%nat, (0, 4)) (h_freed h) /\ ~ In 0%nat (h_durable h) /\
   h_left h 0%nat = Some [FlushBitmaps; ReleaseFrees] /\ h_owned h = [(4, 3)] /\
   map (v_avail (h_dev h)) [0; 3; 6; 7] = [false; false; false; true].
Proof.
  pose proof (r_init 10) as H.
  eapply r_step in H; [|apply (s_alloc _ (0, 4)); intros b Hb; unfold inside in Hb; cbn in *; lia].
  eapply r_step in H; [|apply (s_alloc _ (4, 3)); intros b Hb; unfold inside in Hb; cbn; unfold allocator_take, inside; cbn in *; lia].
  eapply r_step in H; [|apply (s_free _ [(4, 3)] [] [(0, 4)] 0%nat); reflexivity].
  eapply r_step in H; [|apply s_switch].
  eapply r_step in H; [|apply (s_flush_begin _ 0%nat); [cbn; lia|reflexivity]].
  eexists. split; [exact H|]. cbn. intuition.
Qed.
