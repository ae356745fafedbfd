(** Property C10: the persisted allocation bitmap. *)
From Coq Require Import NArith List Lia.
From Verif Require Import ExtSpec BitmapModel BitmapSpec BitmapProofs.
Import ListNotations.
Local Open Scope N_scope.

(** C10: over every legal history no assert fires, and whenever no flush is running
    - the memory bitmap is exactly what is committed and not freed,
    - the stored bitmap marks every block committed when the last flush began,
    - and marks exactly those if anything was committed since the flush before. *)
Theorem c10_stored_bitmap : forall bm ops, legal_run (truth_of bm) ops ->
  exists s t, brun (recovered bm) (truth_of bm) ops = Some (s, t) /\
    (t_flushing t = false -> 
       (forall b, b_bm s b = t_now t b) /\
       (forall b, t_begin t b = true -> stored_bit s b = true) /\
       (t_due t = true -> forall b, stored_bit s b = t_begin t b)).
Proof. exact c10_lemma. Qed.
Print Assumptions c10_stored_bitmap.

(** C10: the same from a new chunk. *)
Theorem c10_stored_bitmap_new_chunk : forall ops, legal_run (truth_of (fun _ => false)) ops ->
  exists s t, brun fresh (truth_of (fun _ => false)) ops = Some (s, t) /\
    (t_flushing t = false -> 
       (forall b, b_bm s b = t_now t b) /\
       (forall b, t_begin t b = true -> stored_bit s b = true) /\
       (t_due t = true -> forall b, stored_bit s b = t_begin t b)).
Proof. exact c10_fresh_lemma. Qed.
Print Assumptions c10_stored_bitmap_new_chunk.

Definition c10_history := [Commit [(0, 3)]; Begin; Commit [(5, 2)]; Free [(1, 1)]; End; Free [(0, 1)]; Begin; End].
Example c10_ex : legal_run (truth_of (fun _ => false)) c10_history /\
  exists s t, brun fresh (truth_of (fun _ => false)) c10_history = Some (s, t) /\ t_due t = true /\
    map (stored_bit s) [0; 1; 2; 3; 4; 5; 6; 7] = [false; false; true; false; false; true; true; false].
Proof.
  split.
  - cbn [legal_run c10_history legal]. repeat split; try reflexivity.
    + exists (0, 3). repeat split. 
    + exists (5, 2). repeat split. intros b Hb. cbn. unfold covers, inside in *. cbn in *. lia.
    + intros b Hb. unfold covers, inside in *. cbn in *. unfold covers, inside. cbn. lia.
  - eexists. eexists. split; [reflexivity|]. split; vm_compute; reflexivity.
Qed.

(** A checkpoint after only frees writes nothing: the freed block stays marked. *)
Theorem c10_free_not_persisted_refuted : exists ops s t, legal_run (truth_of (fun _ => false)) ops /\
  brun fresh (truth_of (fun _ => false)) ops = Some (s, t) /\ t_flushing t = false /\
  t_begin t 0 = false /\ stored_bit s 0 = true.
Proof.
  exists [Commit [(0, 1)]; Begin; End; Free [(0, 1)]; Begin; End]. eexists. eexists. split.
  - cbn [legal_run legal]. repeat split; try reflexivity. exists (0, 1). repeat split.
  - split; [reflexivity|]. vm_compute. auto.
Qed.
Print Assumptions c10_free_not_persisted_refuted.

(** A block committed and freed while the bitmap is written comes back, in memory and
    in the next stored bitmap. *)
Theorem c10_free_in_window_refuted : exists ops s t,
  brun fresh (truth_of (fun _ => false)) ops = Some (s, t) /\ t_flushing t = false /\
  t_now t 0 = false /\ b_bm s 0 = true /\ t_begin t 0 = false /\ stored_bit s 0 = true.
Proof. exists [Begin; Commit [(0, 1)]; Free [(0, 1)]; End; Begin; End]. eexists. eexists. split; [reflexivity|]. vm_compute. auto 10. Qed.
Print Assumptions c10_free_in_window_refuted.

(** Commit, free and commit again of one block during the write ends in a release assert. *)
Theorem c10_recommit_in_window_refuted : exists ops,
  brun fresh (truth_of (fun _ => false)) ops = None /\
  ops = [Begin; Commit [(0, 1)]; Free [(0, 1)]; Commit [(0, 1)]; End].
Proof. eexists. split; [|reflexivity]. vm_compute. reflexivity. Qed.
Print Assumptions c10_recommit_in_window_refuted.

(** A block id of several pieces committed during the write keeps only its first piece:
    the others are never marked. *)
Theorem c10_pieces_in_window_refuted : exists ops s t,
  brun fresh (truth_of (fun _ => false)) ops = Some (s, t) /\ t_flushing t = false /\
  t_begin t 5 = true /\ b_bm s 5 = false /\ stored_bit s 5 = false.
Proof. exists [Begin; Commit [(0, 1); (5, 1)]; End; Begin; End]. eexists. eexists. split; [reflexivity|]. vm_compute. auto 10. Qed.
Print Assumptions c10_pieces_in_window_refuted.
