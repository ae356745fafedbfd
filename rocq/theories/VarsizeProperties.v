(** * C12 and C53: the variable size block allocator. *)
From Coq Require Import NArith List Lia Bool.
From Verif Require Import Base SlabModel SlabSpec SlabProofs ExtSpec BitmapModel VarsizeModel VarsizeSpec VarsizeProofs.
Import ListNotations.
Local Open Scope N_scope.

(** A chunk of 32 blocks in portions of 16, three slabs (1, 2 and 4 blocks). *)
Definition cf1 : vcfg := VCfg 32 16 true.
Definition slabs1 : cache := [Slab 1 [Level 4 []]; Slab 2 [Level 4 []]; Slab 4 [Level 2 []]].
Definition empty1 : vst := VSt (fun _ => false) slabs1 0 1.
Definition sweep1 : sweep := Sweep 0 4 [Refill 4 0; Refill 4 0; Refill 2 0] 0.
Definition scattered : hints := Hints 0 false false 1.
Definition contig : hints := Hints 0 true false 1.
Definition part : hints := Hints 0 false true 1.

(** For the examples: the answer of an allocation and the state after it. *)
Definition answer (r : option (vst * vstatus * list ext)) : option (vstatus * list ext) :=
  match r with Some (_, st, out) => Some (st, out) | None => None end.
Definition after (r : option (vst * vstatus * list ext)) : vst := match r with Some (s, _, _) => s | None => empty1 end.
Lemma by_answer : forall r st out, answer r = Some (st, out) -> r = Some (after r, st, out).
Proof. intros [[[s st'] out']|] st out H; cbn in *; congruence. Qed.
Definition get {A} (d : A) (r : option A) : A := match r with Some s => s | None => d end.
Definition defined {A} (r : option A) : bool := match r with Some _ => true | None => false end.
Lemma by_defined : forall A (d : A) r, defined r = true -> r = Some (get d r).
Proof. intros A d [a|] H; cbn in *; congruence. Qed.

Lemma slabs1_wf : wf slabs1.
Proof.
  intros [|[|[|i]]] s H; simpl in H; try (destruct i; discriminate); injection H as <-;
    (split; [reflexivity|]; split; [discriminate|]; repeat constructor).
Qed.
Lemma empty1_sane : sane cf1 empty1.
Proof.
  unfold sane. cbn [empty1 cf1 vc_total vc_bpp v_cache v_start vc_slabs].
  ands; try exact slabs1_wf; try lia; try discriminate; try (simpl; lia); vm_compute; reflexivity.
Qed.
Lemma empty1_one_place : one_place cf1 empty1 [].
Proof. unfold one_place. ands; intros; reflexivity. Qed.

(** C12.1: after any history of allocations, frees and sweeps, every block is in exactly
    one place, and nothing was undefined. *)
Theorem c12_history : forall cf scan ops s live, scan_ok (vc_total cf) scan -> sane cf s -> one_place cf s live ->
  Forall (legal_vop s) ops ->
  exists s' live', vrun cf scan s live ops = Some (s', live') /\ sane cf s' /\ one_place cf s' live'.
Proof. exact c12_history_lemma. Qed.
Print Assumptions c12_history.

Example c12_history_example :
  scan_ok 32 (first_fit 32) /\ sane cf1 empty1 /\ one_place cf1 empty1 [] /\
  exists s live, vrun cf1 (first_fit 32) empty1 []
    [VSweep [sweep1]; VAlloc 3 scattered [[]; []]; VAlloc 9 contig []; VFree 1; VAlloc 6 scattered [[sweep1]; []]; VCut 0 1; VFree 0] = Some (s, live) /\
    (2 <= length live)%nat.
Proof.
  split; [apply first_fit_ok|]. split; [exact empty1_sane|]. split; [exact empty1_one_place|].
  match goal with |- exists s live, ?r = _ /\ _ => exists (fst (get (empty1, []) r)), (snd (get (empty1, []) r)) end.
  split.
  - rewrite <- surjective_pairing. apply by_defined. vm_compute. reflexivity.
  - vm_compute. lia.
Qed.

(** C12.2: no block is handed out twice or lies outside the chunk. *)
Theorem c12_no_double_allocation : forall cf scan ops s live s' live', scan_ok (vc_total cf) scan -> sane cf s ->
  one_place cf s live -> Forall (legal_vop s) ops -> vrun cf scan s live ops = Some (s', live') ->
  forall b, (holders b live' <= 1)%nat /\ (holders b live' = 1%nat -> b < vc_total cf).
Proof.
  intros cf scan ops s live s' live' H1 H2 H3 H4 H5 b.
  destruct (c12_history_lemma cf scan ops s live H1 H2 H3 H4) as [s2 [l2 [E [_ O]]]].
  rewrite H5 in E. injection E as <- <-. exact (c12_disjoint_lemma _ _ _ O b).
Qed.
Print Assumptions c12_no_double_allocation.

(** C12.3: what one allocation returns. *)
Theorem c12_alloc_result : forall cf scan s live nblks h tries, scan_ok (vc_total cf) scan -> sane cf s -> one_place cf s live ->
  legal_alloc nblks h -> Forall (Forall (legal_sweep s)) tries ->
  exists s' st out, alloc cf scan s nblks h tries = Some (s', st, out) /\
    (length out <= 6)%nat /\ Forall (fun x => 0 < snd x) out /\
    match st with
    | VSuccess => blocks out = nblks /\ one_place cf s' (out ++ live)
    | VPartial => h_partial h = true /\ 0 < blocks out < nblks /\ one_place cf s' (out ++ live)
    | _ => blocks out < nblks /\ one_place cf s' live
    end /\
    (h_contig h = true -> h_partial h = false -> st = VSuccess -> length out = 1%nat).
Proof.
  intros cf scan s live nblks h tries H1 H2 H3 H4 H5.
  destruct (alloc_ok cf scan s live nblks h tries H1 H2 H3 H4 H5) as [s' [st [out [E [A [B [C [D [F [G _]]]]]]]]]].
  exists s', st, out. split; [exact E|]. split; [exact C|]. split; [exact D|]. split; [|exact G].
  destruct st; tauto.
Qed.
Print Assumptions c12_alloc_result.

Definition swept1 : vst := get empty1 (do_sweep cf1 (first_fit 32) empty1 [sweep1]).
Example c12_alloc_example : exists s1 s2, do_sweep cf1 (first_fit 32) empty1 [sweep1] = Some s1 /\
  alloc cf1 (first_fit 32) s1 3 contig [[]] = Some (s2, VSuccess, [(0, 3)]) /\ legal_alloc 3 contig /\
  exists s3, alloc cf1 (first_fit 32) s2 32 part [] = Some (s3, VPartial, [(16, 16)]).
Proof.
  exists swept1, (after (alloc cf1 (first_fit 32) swept1 3 contig [[]])).
  split; [apply by_defined; vm_compute; reflexivity|]. split; [apply by_answer; vm_compute; reflexivity|].
  split; [unfold legal_alloc; cbn; lia|]. eexists. apply by_answer. vm_compute. reflexivity.
Qed.

(** C12.4: a scattered request that may be answered in part, or is for at most six blocks,
    and does not get all it asks for, either filled a whole block id or left no free block. *)
Theorem c12_short_means_full : forall cf scan s live nblks h tries s' st out, scan_ok (vc_total cf) scan -> sane cf s ->
  one_place cf s live -> legal_alloc nblks h -> Forall (Forall (legal_sweep s)) tries ->
  h_contig h = false -> h_min h = 1 -> h_partial h = true \/ nblks <= 6 ->
  (vc_slabs cf = true /\ nblks <= highest_slab s /\ tries <> []) \/ cached (v_cache s) = [] ->
  alloc cf scan s nblks h tries = Some (s', st, out) -> st <> VSuccess ->
  length out = 6%nat \/ forall b, b < vc_total cf -> holders b (out ++ live) = 1%nat.
Proof.
  intros cf scan s live nblks h tries s' st out H1 H2 H3 H4 H5 X1 X2 X3 X4 Ha Hst.
  destruct (alloc_ok cf scan s live nblks h tries H1 H2 H3 H4 H5) as [s2 [st2 [out2 [E [_ [_ [_ [_ [_ [_ G]]]]]]]]]].
  rewrite Ha in E. injection E as <- <- <-. auto.
Qed.
Print Assumptions c12_short_means_full.

Definition full1 : vst := VSt (fun b => b <? 30) [Slab 1 [Level 4 []]; Slab 2 [Level 4 []]; Slab 4 [Level 2 []]] 30 0.
Example c12_short_example : exists s', alloc cf1 (first_fit 32) full1 4 scattered [[]] = Some (s', VSpaceFull, [(30, 2)]) /\
  one_place cf1 full1 [(0, 30)].
Proof.
  eexists. split; [apply by_answer; vm_compute; reflexivity|]. unfold one_place, cf1, full1. cbn [vc_total v_cache v_bm v_alloced]. ands.
  - intros b Hb. change (cached _) with (@nil ext). rewrite ExtFacts.holders_nil, ExtFacts.holders_cons, ExtFacts.holders_nil. unfold inside. cbn [fst snd].
    destruct (N.ltb_spec b 30); destruct ((0 <=? b) && (b <? 0 + 30)) eqn:E; lia.
  - intros b Hb. change (cached _) with (@nil ext). rewrite ExtFacts.holders_nil, ExtFacts.holders_cons, ExtFacts.holders_nil. unfold inside. cbn [fst snd].
    destruct ((0 <=? b) && (b <? 0 + 30)) eqn:E; lia.
  - reflexivity.
Qed.

(** C12.5: giving back a held extent. *)
Theorem c12_free : forall cf s l1 x l2, sane cf s -> one_place cf s (l1 ++ x :: l2) ->
  exists s', free cf s [x] = Some s' /\ one_place cf s' (l1 ++ l2) /\ v_alloced s = v_alloced s' + snd x.
Proof.
  intros cf s l1 x l2 H1 H2.
  destruct (free_ok cf s (l1 ++ x :: l2) x (l1 ++ l2) H1 H2) as [s' [E [_ [_ C]]]].
  { symmetry. apply Permutation.Permutation_middle. }
  exists s'. split; [exact E|]. split; [exact C|].
  destruct C as [_ [_ ->]]. destruct H2 as [_ [_ ->]]. rewrite !ExtFacts.blocks_app. cbn [blocks fold_right]. unfold blocks. lia.
Qed.
Print Assumptions c12_free.

(** ** C53: what does not hold *)
(** Freeing a block id of two pieces whose first is small and whose second is twice the
    largest slab indexes outside the slab table. *)
Definition two_pieces : vst := VSt (fun b => (b =? 0) || inside b (8, 8)) slabs1 9 0.
Theorem c53_free_two_pieces_refuted : sane cf1 two_pieces /\ one_place cf1 two_pieces [(0, 1); (8, 8)] /\
  free cf1 two_pieces [(0, 1); (8, 8)] = None /\
  exists s1 s2, free cf1 two_pieces [(0, 1)] = Some s1 /\ free cf1 s1 [(8, 8)] = Some s2.
Proof.
  split; [|split; [|split]].
  - unfold sane. cbn [two_pieces cf1 vc_total vc_bpp v_cache v_start vc_slabs].
    ands; try exact slabs1_wf; try lia; try discriminate; try (simpl; lia); vm_compute; reflexivity.
  - unfold one_place, cf1, two_pieces. cbn [vc_total v_cache v_bm v_alloced].
    change (cached slabs1) with (@nil ext). ands; [| |reflexivity]; intros b Hb;
      rewrite !ExtFacts.holders_cons, !ExtFacts.holders_nil; unfold inside; cbn [fst snd];
      destruct (N.eqb_spec b 0); destruct ((0 <=? b) && (b <? 0 + 1)) eqn:E1;
      destruct ((8 <=? b) && (b <? 8 + 8)) eqn:E2; cbn; lia.
  - vm_compute. reflexivity.
  - exists (get empty1 (free cf1 two_pieces [(0, 1)])). eexists.
    split; apply (by_defined _ empty1); vm_compute; reflexivity.
Qed.
Print Assumptions c53_free_two_pieces_refuted.

(** A request that fails leaves the pieces it gave back in the caller's block id. *)
Theorem c53_failed_alloc_leaves_pieces_refuted : exists s' out,
  alloc cf1 (first_fit 32) full1 4 scattered [[]] = Some (s', VSpaceFull, out) /\ out <> [] /\ v_bm s' 30 = false.
Proof.
  eexists _, _. split; [apply by_answer; vm_compute; reflexivity|]. split; [discriminate|vm_compute; reflexivity].
Qed.
Print Assumptions c53_failed_alloc_leaves_pieces_refuted.

(** Re-reserving, during recovery, a block the loaded bitmap already has counts it twice. *)
Theorem c53_reserve_counts_twice_refuted : one_place cf1 two_pieces [(0, 1); (8, 8)] /\
  v_alloced (reserve_on_cache two_pieces (8, 8)) <> blocks [(0, 1); (8, 8)].
Proof. split; [apply c53_free_two_pieces_refuted|]. vm_compute. discriminate. Qed.
Print Assumptions c53_reserve_counts_twice_refuted.

(** If the refill thread has run before recovery re-reserves a block, the block stays in
    the cache and is handed out although it is in use. *)
Theorem c53_reserve_after_sweep_refuted : exists s1 s3 out,
  do_sweep cf1 (first_fit 32) empty1 [sweep1] = Some s1 /\
  alloc cf1 (first_fit 32) (reserve_on_cache s1 (0, 4)) 4 contig [[]] = Some (s3, VSuccess, out) /\ out = [(0, 4)].
Proof.
  exists swept1, (after (alloc cf1 (first_fit 32) (reserve_on_cache swept1 (0, 4)) 4 contig [[]])). eexists.
  split; [apply by_defined; vm_compute; reflexivity|]. split; [apply by_answer; vm_compute; reflexivity|reflexivity].
Qed.
Print Assumptions c53_reserve_after_sweep_refuted.

(** A contiguous extent that was allocated and given back cannot be allocated again: the
    cache keeps it in parts. *)
Definition full2 : vst := VSt (fun b => b <? 29) slabs1 29 0.
Theorem c53_realloc_after_free_refuted : exists s1 s2 s3 out,
  alloc cf1 (first_fit 32) full2 3 contig [[]; []] = Some (s1, VSuccess, [(29, 3)]) /\
  free cf1 s1 [(29, 3)] = Some s2 /\
  alloc cf1 (first_fit 32) s2 3 contig [[]; []] = Some (s3, VFailed, out).
Proof.
  pose (s1 := after (alloc cf1 (first_fit 32) full2 3 contig [[]; []])). pose (s2 := get empty1 (free cf1 s1 [(29, 3)])).
  exists s1, s2. eexists _, _. split; [apply by_answer; vm_compute; reflexivity|].
  split; [apply by_defined; vm_compute; reflexivity|]. apply by_answer. vm_compute. reflexivity.
Qed.
Print Assumptions c53_realloc_after_free_refuted.

(** With both [is_contiguous] and [partial_alloc_ok] the answer may be two pieces. *)
Theorem c53_contiguous_partial_refuted : exists s1,
  alloc cf1 (first_fit 32) (VSt (fun b => negb ((b =? 3) || (b =? 7))) slabs1 30 0) 2 (Hints 0 true true 1) [] =
  Some (s1, VSuccess, [(3, 1); (7, 1)]).
Proof. eexists. apply by_answer. vm_compute. reflexivity. Qed.
Print Assumptions c53_contiguous_partial_refuted.
