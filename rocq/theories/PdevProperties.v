(** * C13: chunks on a physical device never overlap.  C54: after failures (refuted). *)
From Coq Require Import Arith NArith List Lia Bool Permutation.
From Verif Require Import Base ExtSpec BitmapModel PdevModel PdevSpec PdevProofs.
Import ListNotations.
Local Open Scope N_scope.

(** After any history of creations, removals, restarts and crashes in the middle of an
    operation, the chunks do not overlap, lie in the data area, use different slots, and
    a restart finds exactly them. *)
Theorem c13_history : forall cf junk m d, phist cf junk (m, d) ->
  placed_well cf (m_chunks m) /\ (forall s, held (m_chunks m) s = found d s).
Proof.
  intros cf junk m d H. apply phist_inv in H. split; [apply mok_placed; apply H|]. eapply held_found; eauto.
Qed.

(** No legal operation and no restart fails an assertion. *)
Theorem c13_defined : forall cf junk st oc, phist cf junk st -> legal_pop cf (fst st) (fst oc) ->
  exists st', pstep cf st oc = Some st'.
Proof.
  intros cf junk st oc H L. destruct (pstep_ok cf st oc (phist_inv _ _ _ H) L) as [st' [E _]]. eauto.
Qed.

(** [create_chunks] makes what was asked, or fails and leaves the same chunks; it fails
    only if no row of that many free ranges exists or too few slots are free. *)
Theorem c13_create_chunks : forall cf junk m d vdev size ids, phist cf junk (m, d) -> 0 < size ->
  exists m' ws ans, create_chunks cf m vdev size ids = Some (m', ws, ans) /\
    match ans with
    | Some made => Permutation (m_chunks m') (made ++ m_chunks m) /\
                   map req made = map (fun id => (size, vdev, id)) ids /\ placed_well cf (m_chunks m')
    | None => (forall c, In c (m_chunks m') <-> In c (m_chunks m)) /\
       ((forall ts, row cf (p_start cf) size (m_chunks m) ts -> (length ts < length ids)%nat) \/
        (forall ss, slots_free cf (m_chunks m) ss -> (length ss < length ids)%nat))
    end.
Proof.
  intros cf junk m d vdev size ids H Hs.
  destruct (create_chunks_ok cf m d vdev size ids (phist_inv _ _ _ H) Hs) as [m' [ws [ans [E [A [B [C D]]]]]]].
  exists m', ws, ans. split; [exact E|]. destruct ans as [made|]; [|now apply D].
  destruct (C made eq_refl) as [C1 [C2 _]]. ands; auto. apply mok_placed. apply A.
Qed.

(** [create_chunk] fails only if no gap is large enough or no slot is free. *)
Theorem c13_create_chunk : forall cf junk m d id vdev size ord, phist cf junk (m, d) -> 0 < size ->
  exists m' ws ans, create_chunk cf m id vdev size ord = Some (m', ws, ans) /\
    match ans with
    | Some c => m_chunks m' = c :: m_chunks m /\ req c = (size, vdev, id) /\ placed_well cf (m_chunks m')
    | None => m_chunks m' = m_chunks m /\
       (~ has_gap cf (m_chunks m) size \/ forall ss, slots_free cf (m_chunks m) ss -> ss = [])
    end.
Proof.
  intros cf junk m d id vdev size ord H Hs.
  destruct (create_chunk_ok cf m d id vdev size ord (phist_inv _ _ _ H) Hs)
    as [[E F]|[[m' [E [G K]]]|[m' [b [i [E [A [B [C [D _]]]]]]]]]].
  - exists m, [], None. auto.
  - exists m', [], None. auto.
  - eexists m', _, (Some (b, i)). split; [exact E|]. ands; auto. apply mok_placed. apply A.
Qed.

(** A crash inside a successful creation, or inside one removal, leaves on disk what was
    there before, until the last write, which leaves what the operation promised. *)
Theorem c13_crash_atomic : forall cf junk m d, phist cf junk (m, d) ->
  (forall vdev size ids m' ws made, 0 < size -> create_chunks cf m vdev size ids = Some (m', ws, Some made) ->
     forall k s, found (wr_all d (firstn k ws)) s = if Nat.ltb k (length ws) then found d s else held (m_chunks m') s) /\
  (forall id vdev size ord m' ws c, 0 < size -> create_chunk cf m id vdev size ord = Some (m', ws, Some c) ->
     forall k s, found (wr_all d (firstn k ws)) s = if Nat.ltb k (length ws) then found d s else held (m_chunks m') s) /\
  (forall c m' ws, In c (m_chunks m) -> do_remove m c = (m', ws) ->
     forall k s, found (wr_all d (firstn k ws)) s =
       if Nat.ltb k (length ws) then found d s else if s =? fst c then None else found d s).
Proof.
  intros cf junk m d H. apply phist_inv in H. ands.
  - intros vdev size ids m' ws made Hs E k s.
    destruct (create_chunks_ok cf m d vdev size ids H Hs) as [m2 [ws2 [ans [E2 [A [B [C D]]]]]]].
    rewrite E in E2. injection E2 as <- <- <-. destruct (C made eq_refl) as [_ [_ [wi [W1 W2]]]].
    destruct (Nat.ltb_spec k (length ws)) as [L|L].
    + subst ws. apply last_write_decides; auto.
    + rewrite firstn_all2 by exact L. symmetry. eapply held_found; eauto.
  - intros id vdev size ord m' ws c Hs E k s.
    destruct (create_chunk_ok cf m d id vdev size ord H Hs)
      as [[E2 F]|[[m2 [E2 [G K]]]|[m2 [b [i [E2 [A [B [C [D F]]]]]]]]]]; rewrite E in E2; try discriminate.
    injection E2 as <- -> ->.
    destruct (Nat.ltb_spec k (length [WInfos b [i]; WBitmap (m_bm m')])) as [L|L].
    + apply (last_write_decides d [WInfos b [i]] (WBitmap (m_bm m'))); [|exact L]. constructor; [|constructor].
      cbn [quiet length]. intros t Ht. replace t with b by (clear - Ht; lia). exact F.
    + rewrite firstn_all2 by exact L. symmetry. eapply held_found; eauto.
  - intros c m' ws Hc E k s.
    destruct (Nat.ltb_spec k (length ws)) as [L|L]; [eapply remove_atomic; eauto|].
    rewrite firstn_all2 by exact L.
    destruct (do_remove_ok cf m d c m' ws (proj1 H) (proj1 (proj2 H)) Hc E) as [_ [R [_ [B4 [B5 _]]]]].
    destruct (N.eqb_spec s (fst c)) as [->|Ne].
    + unfold found. rewrite B4, B5. rewrite bit_off_spec, N.eqb_refl. reflexivity.
    + unfold do_remove in E. injection E as _ <-. unfold found. cbn [wr_all fold_left wr_disk d_bm d_slot m_bm].
      rewrite bit_off_spec. destruct H as [_ [_ [_ Hd]]]. cbn [fst snd] in Hd. rewrite <- Hd.
      destruct (N.eqb_spec s (fst c)) as [X|_]; [contradiction|].
      rewrite put_slots_out; [reflexivity|]. cbn [length]. clear - Ne. lia.
Qed.

(** ** An example history: three chunks, remove the middle one, a crash in the middle of
    the next creation, a restart, a creation that fits the hole. *)
Fixpoint prun (cf : pcfg) (st : pmem * pdisk) (l : list (pop * option nat)) : option (pmem * pdisk) :=
  match l with [] => Some st | o :: r => match pstep cf st o with None => None | Some st' => prun cf st' r end end.
Definition ex_cf : pcfg := PCfg 100 400 8.
Definition ex_junk : N -> option cinfo := fun _ => None.
Definition ex_ops : list (pop * option nat) :=
  [(PCreates 5 60 [10; 11; 12], None); (PRemove 1, None); (PCreates 6 50 [13; 14], Some 1%nat);
   (PRestart, None); (PCreate 15 6 50 0, None); (PCreates 7 100 [16; 17], None)].
Definition chunk_view (st : option (pmem * pdisk)) : option (list (N * ext)) :=
  option_map (fun st => map (fun c => (fst c, ci_ext (snd c))) (m_chunks (fst st))) st.

Example c13_example_run :
  chunk_view (prun ex_cf (formatted ex_junk) ex_ops) = Some [(1, (160, 50)); (2, (220, 60)); (0, (100, 60))].
Proof. vm_compute. reflexivity. Qed.

Lemma phist_run : forall cf junk l st st', phist cf junk st -> (forall o, In o l -> forall m, legal_pop cf m (fst o)) ->
  prun cf st l = Some st' -> phist cf junk st'.
Proof.
  induction l as [|o r IH]; intros st st' H L E; cbn [prun] in E; [injection E as <-; exact H|].
  destruct (pstep cf st o) as [st1|] eqn:E1; [|discriminate]. apply (IH st1); auto.
  - eapply ph_step; eauto. apply L. now left.
  - intros o' Ho. apply L. now right.
Qed.

Lemma prun_app : forall cf l1 l2 st, prun cf st (l1 ++ l2) = match prun cf st l1 with None => None | Some st' => prun cf st' l2 end.
Proof. induction l1 as [|o r IH]; intros l2 st; cbn [prun app]; [reflexivity|]. destruct (pstep cf st o); auto. Qed.

Example c13_example : exists st, prun ex_cf (formatted ex_junk) ex_ops = Some st /\ phist ex_cf ex_junk st.
Proof.
  change ex_ops with (firstn 4 ex_ops ++ [nth 4 ex_ops (PRestart, None)] ++ skipn 5 ex_ops).
  rewrite prun_app. destruct (prun ex_cf (formatted ex_junk) (firstn 4 ex_ops)) as [st1|] eqn:E1.
  2:{ assert (X : chunk_view (prun ex_cf (formatted ex_junk) (firstn 4 ex_ops)) <> None) by (vm_compute; discriminate).
      rewrite E1 in X. now contradiction X. }
  assert (H1 : phist ex_cf ex_junk st1).
  { eapply phist_run; [apply ph_format| |exact E1]. cbn [ex_ops firstn In].
    intros o Ho m. repeat (destruct Ho as [<-|Ho]; [cbn [fst legal_pop]; trivial; try lia|]). contradiction. }
  assert (V : chunk_view (prun ex_cf (formatted ex_junk) (firstn 4 ex_ops)) = Some [(2, (220, 60)); (0, (100, 60))])
    by (vm_compute; reflexivity).
  rewrite E1 in V. cbn [chunk_view option_map] in V. injection V as V.
  assert (R : ranges (m_chunks (fst st1)) = [(220, 60); (100, 60)]).
  { change (ranges (m_chunks (fst st1))) with (map (fun c : chunk => ci_ext (snd c)) (m_chunks (fst st1))).
    rewrite <- (map_map (fun c : chunk => (fst c, ci_ext (snd c))) snd). rewrite V. reflexivity. }
  rewrite prun_app. cbn [nth ex_ops prun].
  assert (L : legal_pop ex_cf (fst st1) (PCreate 15 6 50 0)).
  { cbn [legal_pop]. split; [lia|]. exists 160. rewrite R. cbn [ex_cf p_start p_end]. ands; [lia|lia|].
    intros x [<-|[<-|[]]] [b [B1 B2]]; unfold inside in *; cbn [fst snd] in *; lia. }
  destruct (c13_defined _ _ _ (PCreate 15 6 50 0, None) H1 L) as [st2 E2]. rewrite E2.
  assert (H2 : phist ex_cf ex_junk st2) by exact (ph_step _ _ _ (PCreate 15 6 50 0, None) H1 L _ E2).
  destruct (c13_defined _ _ _ (PCreates 7 100 [16; 17], None) H2) as [st3 E3]; [cbn [fst legal_pop]; lia|].
  change (skipn 5 ex_ops) with [(PCreates 7 100 [16; 17], @None nat)]. cbn [prun]. rewrite E3. exists st3. split; [reflexivity|]. refine (ph_step _ _ _ (PCreates 7 100 [16; 17], None) H2 _ _ E3). cbn [fst legal_pop]. lia.
Qed.

(** ** C54.  Without "a single create is only called when a free range exists". *)

(** A creation that fails for lack of space keeps its slot; the next bitmap write
    persists the slot, and a restart loads whatever it holds: a chunk that was removed,
    on top of a live one. *)
Definition view (st : option (pmem * pdisk)) : option (list (N * ext * N)) :=
  option_map (fun st => map (fun c => (fst c, ci_ext (snd c), ci_id (snd c))) (m_chunks (fst st))) st.
Theorem c54_failed_create_overlap_refuted : exists cf ops l,
  view (prun cf (formatted ex_junk) ops) = Some l /\
  exists c1 c2, In c1 l /\ In c2 l /\ fst (fst c1) <> fst (fst c2) /\ overlap (snd (fst c1)) (snd (fst c2)).
Proof.
  exists (PCfg 100 200 4),
    [(PCreate 0 1 60 0, None); (PRemove 0, None); (PCreate 1 1 500 0, None); (PCreate 2 1 60 0, None); (PRestart, None)].
  eexists. split; [vm_compute; reflexivity|].
  exists (1, (100, 60), 2), (0, (100, 60), 0). cbn [In fst snd]. ands; auto; [lia|].
  exists 100. split; reflexivity.
Qed.

(** Or the slot was never written: the restart fails the checksum assert. *)
Theorem c54_failed_create_unreadable_refuted : exists cf ops1 ops2,
  view (prun cf (formatted ex_junk) ops1) <> None /\ ops2 = ops1 ++ [(PRestart, None)] /\
  view (prun cf (formatted ex_junk) ops2) = None.
Proof.
  exists (PCfg 100 200 4), [(PCreate 1 1 500 0, None); (PCreate 2 1 60 0, None)], 
    [(PCreate 1 1 500 0, None); (PCreate 2 1 60 0, None); (PRestart, None)].
  ands; [vm_compute; discriminate|reflexivity|vm_compute; reflexivity].
Qed.

(** A crash between the creation of the chunks of a vdev and the write of the vdev info
    leaves chunks whose id is handed out again: when the vdev is created again, two
    loaded chunks of it have the same id. *)
Theorem c54_chunk_id_reused_refuted : exists cf ops1 vdev known0 id ops2 l,
  (forall st, prun cf (formatted ex_junk) ops1 = Some st ->
     known0 vdev = false /\ next_chunk_id (ids_after_load known0 (m_chunks (fst st))) = Some id) /\
  view (prun cf (formatted ex_junk) (ops1 ++ [(PCreates vdev 60 [id], None); (PRestart, None)])) = Some l /\
  ops2 = ops1 ++ [(PCreates vdev 60 [id], None); (PRestart, None)] /\
  exists c1 c2, In c1 l /\ In c2 l /\ fst (fst c1) <> fst (fst c2) /\ snd c1 = snd c2.
Proof.
  exists (PCfg 100 400 4), [(PCreates 0 60 [0], None); (PCreates 1 60 [1], None); (PRestart, None)], 1, (N.eqb 0), 1.
  eexists _, _. ands.
  - intros st E. split; [reflexivity|].
    pose (g := fun st : pmem * pdisk => next_chunk_id (ids_after_load (N.eqb 0) (m_chunks (fst st)))).
    assert (X : option_map g
       (prun (PCfg 100 400 4) (formatted ex_junk) [(PCreates 0 60 [0], None); (PCreates 1 60 [1], None); (PRestart, None)]) = Some (Some 1))
      by (vm_compute; reflexivity).
    change (g st = Some 1). clearbody g. rewrite E in X. cbn [option_map] in X. now injection X.
  - vm_compute. reflexivity.
  - reflexivity.
  - exists (2, (220, 60), 1), (1, (160, 60), 1). cbn [In fst snd]. ands; auto; lia.
Qed.

Print Assumptions c13_history.
Print Assumptions c13_defined.
Print Assumptions c13_create_chunks.
Print Assumptions c13_create_chunk.
Print Assumptions c13_crash_atomic.
Print Assumptions c54_failed_create_overlap_refuted.
Print Assumptions c54_failed_create_unreadable_refuted.
Print Assumptions c54_chunk_id_reused_refuted.
