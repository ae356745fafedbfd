(** * C33, C34, C67, C68: scattered reads and writes; allocation through the data service. *)
From Coq Require Import NArith List Bool Permutation Lia Arith.
From Verif Require Import Base DataSvcModel DataSvcSpec DataSvcProofs.
Import ListNotations.
Open Scope N_scope.

(** ** C33 *)
Definition calls_ok (e : env) (size : N -> N) (cs : list call) : Prop :=
  Forall (fun c => Forall (piece_ok e size) (call_pieces c) /\ call_ok e c) cs /\ NoDup (flat_map blocks (flat_map call_pieces cs)).
(** Any number of writes at once, to ids with no block in common, their requests done in any
    order: each id holds the bytes written to it. *)
Theorem c33_write e size m cs d d' c : env_ok e size -> calls_ok e size cs -> writes_done m (flat_map (fun c => issued (call_reqs e c)) cs) d d' -> In c cs ->
  stored e d' (call_pieces c) = bytes m (call_iovs c).
Proof.
  intros HE [HF HN] (l & HP & ->) HC. assert (HNP : NoDup (flat_map (place e) (flat_map call_pieces cs))). { apply (places_nodup e size); auto. apply Forall_flat_map. eapply Forall_impl; [|exact HF]. cbn. tauto. }
  rewrite writes_cells, stored_places. rewrite Forall_forall in HF. destruct (HF c HC) as [H1 H2]. destruct (call_pairs e c (piece_there e size _ H1) H2) as (_ & H3 & H4). unfold bytes.
  apply map_cells; [repeat decide equality|now rewrite map_length|]. intros a v HA. rewrite combine_mapr, <- H3, <- wcells_pairs in HA. apply (cells_in set1 dput_same dput_other).
  - rewrite wcells_pairs, map_map. cbn [fst]. rewrite <- (calls_pairs e size cs) in HNP by (rewrite Forall_forall; exact HF). eapply Permutation_NoDup; [|exact HNP]. apply Permutation_map, Permutation_flat, HP.
  - eapply Permutation_in; [apply Permutation_flat, HP|]. apply in_flat_map in HA. destruct HA as (r & R1 & R2). apply in_flat_map. exists r. split; [|exact R2]. apply in_flat_map. eauto.
Qed.
(** Nothing else on any drive changes. *)
Theorem c33_write_else e size m cs d d' p o : Forall (fun c => Forall (piece_ok e size) (call_pieces c) /\ call_ok e c) cs ->
  writes_done m (flat_map (fun c => issued (call_reqs e c)) cs) d d' ->
  (forall c b s i, In (c, b) (flat_map blocks (flat_map call_pieces cs)) -> e_chunk e c = Some (p, s) -> i < e_bs e -> o <> s + b * e_bs e + i) -> d' (p, o) = d (p, o).
Proof.
  intros HF (l & HP & ->) HO. rewrite writes_cells. apply (cells_out set1 dput_other). rewrite wcells_pairs, map_map. cbn [fst]. intro HI.
  assert (HI' : In (p, o) (map fst (flat_map rpairs (flat_map (fun c => issued (call_reqs e c)) cs)))) by (eapply Permutation_in; [apply Permutation_sym, Permutation_map, Permutation_flat, HP|exact HI]).
  rewrite (calls_pairs e size cs HF), places_blocks in HI'. apply in_flat_map in HI'. destruct HI' as ([c b] & B1 & B2). unfold bplace in B2. cbn [fst snd] in B2. destruct (e_chunk e c) as [[p' s]|] eqn:E; [|destruct B2]. apply in_map_iff in B2. destruct B2 as (i & EI & HIN). injection EI as -> <-. apply nseq_in in HIN. apply (HO c b s i B1 E); lia.
Qed.
(** A read puts what is stored into its buffers, and into nothing else. *)
Theorem c33_read e size d c m m' : Forall (piece_ok e size) (call_pieces c) -> call_ok e c -> NoDup (addrs (call_iovs c)) -> reads_done d (issued (call_reqs e c)) m m' ->
  bytes m' (call_iovs c) = stored e d (call_pieces c) /\ forall a, ~ In a (addrs (call_iovs c)) -> m' a = m a.
Proof.
  intros HF HC HN (l & HP & ->). rewrite reads_cells. destruct (call_pairs e c (piece_there e size _ HF) HC) as (_ & H3 & H4).
  assert (HPR : Permutation (map fst (flat_map (rcells d) l)) (addrs (call_iovs c))). { transitivity (map fst (flat_map (rcells d) (issued (call_reqs e c)))); [apply Permutation_map, Permutation_flat, Permutation_sym, HP|]. rewrite rcells_pairs, map_map, H3. cbn [fst]. rewrite map_snd_combine by exact H4. reflexivity. }
  split.
  - rewrite stored_places. unfold bytes. apply map_cells; [repeat decide equality|rewrite map_length; congruence|]. intros a v HA. apply (cells_in set_mem mput_same mput_other).
    + eapply Permutation_NoDup; [apply Permutation_sym, HPR|exact HN].
    + eapply Permutation_in; [apply Permutation_flat, HP|]. rewrite rcells_pairs, H3, <- combine_mapl. exact HA.
  - intros a HA. apply (cells_out set_mem mput_other). intro HC'. apply HA. eapply Permutation_in; [exact HPR|exact HC'].
Qed.
(** Write, then read the same blocks, each way cut up as it may be: the same bytes. *)
Theorem c33_round_trip e size m cs d d' w r m1 m2 : env_ok e size -> calls_ok e size cs -> writes_done m (flat_map (fun c => issued (call_reqs e c)) cs) d d' -> In w cs ->
  call_pieces r = call_pieces w -> call_ok e r -> NoDup (addrs (call_iovs r)) -> reads_done d' (issued (call_reqs e r)) m1 m2 -> bytes m2 (call_iovs r) = bytes m (call_iovs w).
Proof.
  intros HE HO HW HI HP HR HN HD. assert (HF : Forall (piece_ok e size) (call_pieces r)). { rewrite HP. destruct HO as [HF _]. rewrite Forall_forall in HF. apply (HF w HI). }
  destruct (c33_read e size d' r m1 m2 HF HR HN HD) as [H _]. rewrite H, HP. exact (c33_write e size m cs d d' w HE HO HW HI).
Qed.
(** Success is reported if and only if every piece is in a chunk that is there. *)
Theorem c33_reports e l xs : all_ok (sg_reqs e l xs) = true <-> Forall (fun x => e_chunk e (fst (fst x)) <> None) xs.
Proof.
  assert (HV : forall x t, (match vreq e x t with Some _ => true | None => false end) = true <-> e_chunk e (fst (fst x)) <> None). { intros [[c b] k] t. unfold vreq, to_dev. cbn. destruct (e_chunk e c) as [[p s]|]; split; congruence. }
  assert (HL : forall ys l, all_ok (sg_loop e l ys) = true <-> Forall (fun x => e_chunk e (fst (fst x)) <> None) ys).
  { induction ys as [|y ys IH]; intro l0; [cbn; split; constructor|]. cbn [sg_loop]. destruct (next_iovs _ _) as [t q]. cbn [all_ok forallb]. rewrite andb_true_iff, HV, Forall_cons_iff. fold (all_ok (sg_loop e q ys)). now rewrite IH. }
  unfold sg_reqs. destruct xs as [|x [|y xs]]; [cbn; split; constructor| |apply HL]. cbn [all_ok forallb]. rewrite andb_true_r, HV, Forall_cons_iff. split; [auto|tauto].
Qed.

(** A concrete case: two drives, 4-byte blocks, three pieces, buffers cut elsewhere. *)
Definition e0 : env := Env 4 (fun c => if c =? 1 then Some (0, 100) else if c =? 2 then Some (0, 200) else if c =? 3 then Some (7, 0) else None).
Definition size0 (c : N) : N := 100.
Definition w0 : call := CSg [(1000, 3); (2000, 10); (3000, 7)] [(1, 3, 1); (3, 0, 3); (2, 5, 1)].
Definition w1 : call := CVec [(4000, 1); (4010, 15)] [[(1, 4, 1); (1, 8, 2)]; [(2, 24, 1)]].
Definition r0 : call := CBuf 9000 20 [(1, 3, 1); (3, 0, 3); (2, 5, 1)].
Example e0_ok : env_ok e0 size0.
Proof.
  split; [reflexivity|]. intros c c' p s s' HN. unfold e0, size0. cbn. destruct (N.eqb_spec c 1), (N.eqb_spec c' 1), (N.eqb_spec c 2), (N.eqb_spec c' 2), (N.eqb_spec c 3), (N.eqb_spec c' 3); subst; try discriminate; try congruence; intros H H'; injection H as <- <-; injection H' as <-; try discriminate; lia.
Qed.
Example calls0_ok : calls_ok e0 size0 [w0; w1].
Proof.
  split.
  - repeat (apply Forall_cons || apply Forall_nil || split); cbn; try discriminate; try reflexivity.
  - vm_compute. repeat constructor; cbn; intuition discriminate.
Qed.
Example calls0_runs : let d' := fold_left (do_write (fun a => a)) (rev (flat_map (fun c => issued (call_reqs e0 c)) [w0; w1])) (fun _ => 0) in
  stored e0 d' (call_pieces w0) = [1000; 1001; 1002; 2000; 2001; 2002; 2003; 2004; 2005; 2006; 2007; 2008; 2009; 3000; 3001; 3002; 3003; 3004; 3005; 3006] /\
  bytes (fold_left (do_read d') (issued (call_reqs e0 r0)) (fun _ => 0)) (call_iovs r0) = bytes (fun a => a) (call_iovs w0) /\
  stored e0 d' [(1, 4, 1); (2, 24, 1)] = [4000; 4010; 4011; 4012; 4021; 4022; 4023; 4024].
Proof. vm_compute. auto. Qed.

(** Without the bound on the ids of a vector: the count of the first id wraps, and the second id is
    written from the wrong place in the buffer. *)
Theorem c67_vector_wrap_refuted : exists e l ids, N.of_nat (length (addrs l)) = id_bytes (e_bs e) (concat ids) /\
  Forall (fun x => snd x < 65536 /\ e_chunk e (fst (fst x)) <> None) (concat ids) /\ Forall (fun xs => length xs <= 6)%nat ids /\
  exists p o, nth 2 (vec_reqs e l ids) None = Some (p, o, [(0, 1)]) /\ bytes (fun a => a) l = nseq 0 65537 /\ id_bytes (e_bs e) (firstn 1 (concat ids)) + id_bytes (e_bs e) (firstn 1 (skipn 1 (concat ids))) = 65536.
Proof.
  exists (Env 1 (fun _ => Some (0, 0))), [(0, 65537)], [[(1, 0, 32768); (1, 40000, 32768)]; [(1, 100000, 1)]].
  assert (HA : addrs [(0, 65537)] = nseq 0 65537) by (unfold addrs; cbn [flat_map fst snd]; apply app_nil_r).
  split; [|split; [|split]].
  - rewrite HA, nseq_length. unfold id_bytes. rewrite blocks_len. reflexivity.
  - repeat constructor; try discriminate.
  - repeat constructor.
  - exists 0, 100000. split; [reflexivity|]. split; [unfold bytes; rewrite HA; apply map_id|]. unfold id_bytes. rewrite !blocks_len. reflexivity.
Qed.

(** ** C34 *)
(** The virtual device gives what it is asked for (C05 to C09, C12). *)
Definition exact_alloc (valloc : N -> astatus * list piece) : Prop := forall n xs, valloc n = (ASuccess, xs) -> N.of_nat (length (flat_map blocks xs)) = n.
Theorem c34_exact e valloc size xs : exact_alloc valloc -> size / e_bs e < 65536 -> alloc_blks e valloc size = (ASuccess, xs) -> N.of_nat (length (flat_map blocks xs)) = size / e_bs e.
Proof. intros HV HS H. unfold alloc_blks in H. rewrite N.mod_small in H by exact HS. exact (HV _ _ H). Qed.
Definition simple_alloc (n : N) : astatus * list piece := (ASuccess, [(1, 0, n)]).
Lemma simple_exact : exact_alloc simple_alloc.
Proof. intros n xs H. injection H as <-. rewrite blocks_len. cbn. lia. Qed.
Example c34_use : alloc_blks (Env 4096 (fun _ => Some (0, 0))) simple_alloc (65535 * 4096) = (ASuccess, [(1, 0, 65535)]).
Proof. reflexivity. Qed.
(** 65537 blocks of 4096 bytes asked for: one is given, and success reported. *)
Theorem c34_refuted : exists e valloc size xs, exact_alloc valloc /\ size < 2 ^ 32 /\ size mod e_bs e = 0 /\ alloc_blks e valloc size = (ASuccess, xs) /\ N.of_nat (length (flat_map blocks xs)) < size / e_bs e.
Proof.
  exists (Env 4096 (fun _ => Some (0, 0))), simple_alloc, (65537 * 4096), [(1, 0, 1)]. split; [exact simple_exact|]. split; [reflexivity|]. split; [reflexivity|]. split; [reflexivity|]. rewrite blocks_len. reflexivity.
Qed.
(** And async_alloc_write then writes all the bytes from that block on, over its neighbours. *)
Theorem c34_overwrites_refuted : exists e valloc l xs p o, exact_alloc valloc /\ total l < 2 ^ 32 /\ alloc_write e valloc l = Some (xs, [Some (p, o, l)]) /\
  o = 0 /\ e_chunk e 1 = Some (p, 0) /\ xs = [(1, 0, 1)] /\ e_bs e * 65536 < total l.
Proof. exists (Env 4096 (fun _ => Some (0, 0))), simple_alloc, [(0, 65537 * 4096)], [(1, 0, 1)], 0, 0. split; [exact simple_exact|]. repeat split. Qed.

(** ** C68: allocation into a vector *)
(** On success every block handed out is in the vector. *)
Theorem c68_success rs : forall n out st res, vec_alloc rs n out = Some (st, res) -> st <> AFailed -> exists k, res = out ++ flat_map snd (firstn k rs) /\ Forall (fun r => fst r <> AFailed) (firstn k rs).
Proof.
  induction rs as [|[a xs] rs IH]; intros n out st res H HS; cbn in H; [injection H as <- <-; congruence|].
  destruct a; [| |destruct out; [discriminate|injection H as <- _; congruence]].
  - destruct (_ =? 0); [injection H as <- <-; exists 1%nat; cbn; rewrite app_nil_r; split; [reflexivity|repeat constructor; discriminate]|]. destruct (IH _ _ _ _ H HS) as (k & -> & HF). exists (S k). cbn. rewrite app_assoc. split; [reflexivity|]. constructor; [discriminate|exact HF].
  - destruct (_ =? 0); [injection H as <- <-; exists 1%nat; cbn; rewrite app_nil_r; split; [reflexivity|repeat constructor; discriminate]|]. destruct (IH _ _ _ _ H HS) as (k & -> & HF). exists (S k). cbn. rewrite app_assoc. split; [reflexivity|]. constructor; [discriminate|exact HF].
Qed.
Example c68_use : vec_alloc [(APartial, [(1, 0, 3)]); (ASuccess, [(2, 4, 7)])] 10 [] = Some (ASuccess, [(1, 0, 3); (2, 4, 7)]).
Proof. reflexivity. Qed.
(** A first answer that fails: pop_back on an empty vector. *)
Theorem c68_empty_refuted : vec_alloc [(AFailed, [])] 10 [] = None.
Proof. reflexivity. Qed.
(** A later one that fails: a piece handed out by the allocator is dropped from the vector, so the caller cannot free it. *)
Theorem c68_lost_refuted : exists rs n res x, vec_alloc rs n [] = Some (AFailed, res) /\ In x (flat_map snd rs) /\ ~ In x res.
Proof. exists [(APartial, [(1, 0, 3)]); (APartial, [(1, 9, 2)]); (AFailed, [])], 10, [(1, 0, 3)], (1, 9, 2). split; [reflexivity|]. split; [cbn; tauto|]. cbn. intuition discriminate. Qed.

Print Assumptions c33_write.
Print Assumptions c33_write_else.
Print Assumptions c33_read.
Print Assumptions c33_round_trip.
Print Assumptions c33_reports.
Print Assumptions c67_vector_wrap_refuted.
Print Assumptions c34_exact.
Print Assumptions c34_refuted.
Print Assumptions c34_overwrites_refuted.
Print Assumptions c68_success.
Print Assumptions c68_empty_refuted.
Print Assumptions c68_lost_refuted.
