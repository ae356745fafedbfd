(** * C19-C24, C60, C61: the log device and its stores. *)
From Coq Require Import NArith ZArith List Bool Lia.
From Verif Require Import Base LogDevModel LogDevSpec LogDevProofs.
Import ListNotations.
Open Scope Z_scope.

Lemma map_snd_numz {A} (l : list A) : forall i, map snd (numz i l) = l.
Proof. induction l; intro i; cbn; [reflexivity|]. f_equal. apply IHl. Qed.
Lemma find_sync id l p (gs : list (N * glog)) : find_id id gs = Some l ->
  find_id id (map (fun e => (fst e, gl_sync (on_way (fst e) p) (snd e))) gs) = Some (gl_sync (on_way id p) l).
Proof.
  induction gs as [|[k v] gs IH]; cbn; [discriminate|]. destruct (N.eqb_spec k id); [intro H; injection H as ->; subst; reflexivity|exact IH].
Qed.

(** No legal operation fails an assertion, and the state keeps to the plain lists. *)
Theorem c19_never_stuck w g o : reached w g -> legal w g o -> exists w', exec w o = Some w' /\ reached w' (gstep g o).
Proof.
  intros HR HL. destruct (exec_inv w g o (reached_inv _ _ HR) HL) as (w' & H1 & H2). exists w'. split; [exact H1|]. econstructor; eauto.
Qed.

(** After a crash at any point every store opened again gets exactly its durable entries, in
    order and once each; a store that is gone or is not opened gets nothing. *)
Theorem c19_recovery w g keep : reached w g ->
  exists w' cb, restart (w_disk w) (filter (fun id => mem_id id keep) (map fst (w_stores w))) = Some (w', cb) /\
    (forall id l, mem_id id keep = true -> find_id id (g_live g) = Some l -> calls_of id cb = number (p_from l) (p_items l)) /\
    (forall id, find_id id (g_live g) = None \/ mem_id id keep = false -> calls_of id cb = []) /\
    reached w' (gstep g (OCrash keep)).
Proof.
  intro HR. destruct (restart_inv w g keep (reached_inv _ _ HR)) as (w' & cb & H1 & H2 & H3 & H4). exists w', cb. ands; auto.
  eapply reached_step; [exact HR|exact I|]. cbn [exec]. now rewrite H1.
Qed.

(** New entries go on after the recovered ones. *)
Theorem c19_append_goes_on w g id d l : reached w g -> find_id id (g_live g) = Some l ->
  exists w', append w id d = Some (w', m_from l + Z.of_nat (length (m_items l))) /\ reached w' (gstep g (OAppend id d)).
Proof.
  intros HR HL. destruct (append_inv w g id d l (reached_inv _ _ HR) HL) as (w' & H1 & H2). exists w'. split; [exact H1|].
  eapply reached_step; [exact HR|exists l; exact HL|]. cbn [exec]. now rewrite H1.
Qed.

(** Every append whose group is on the device is among the durable ones: nothing pending, no
    difference between now and after a crash, but for truncations not made durable. *)
Theorem c19_flushed_is_durable w g id l : reached w g -> find_id id (g_live g) = Some l ->
  p_from l <= m_from l /\
  skipn (Z.to_nat (m_from l - p_from l)) (p_items l) = firstn (length (m_items l) - on_way id (g_pend g)) (m_items l).
Proof.
  intros HR HL. destruct (reached_inv _ _ HR) as (HB & HM & HD).
  destruct (both_find' _ _ _ _ _ HM HL) as (s & HS & K & HC & HLen & HP & _).
  destruct (both_find' _ _ _ _ _ HD HL) as (s' & _ & (K' & HLK & HC') & _ & HF & HT). split; [exact HF|].
  rewrite (cont_later id (p_from l) (m_from l)) in HC by exact HF. rewrite HC', zip_later in HC by lia.
  set (n := Z.to_nat (m_from l - p_from l)) in *. apply (f_equal (map snd)) in HC.
  rewrite <- (on_way_pend id _ _ (b_pend _ _ HB)), HP, numz_length, skipn_length.
  replace (length (m_items l) - (length (m_items l) - length K))%nat with (length K) by lia.
  rewrite zip_snd in HC by (rewrite !skipn_length; lia).
  rewrite <- (zip_items_firstn _ K (m_items l) (length K)), zip_snd in HC by (rewrite ?firstn_length; lia).
  apply (f_equal (map snd)) in HC. rewrite !map_snd_numz in HC. exact HC.
Qed.

(** ** C20 *)
(** Cutting the log takes nothing from a store: everything from its own truncation point on is
    still read, and recovered by a restart right after. *)
Theorem c20_truncation_safe w g id l : reached w g -> cut_clean w -> find_id id (g_live g) = Some l ->
  (forall lsn, exists w', read_sync (truncate w) id lsn = Some (w', expected l lsn)) /\
  (exists w' cb, restart (w_disk (truncate w)) (map fst (w_stores w)) = Some (w', cb) /\
     calls_of id cb = number (m_from l) (firstn (length (m_items l) - on_way id (g_pend g)) (m_items l))).
Proof.
  intros HR HC HL. assert (HR2 : reached (truncate w) (gstep g ODevTrunc)) by (eapply reached_step; [exact HR|exact HC|reflexivity]).
  assert (HL2 : find_id id (g_live (gstep g ODevTrunc)) = Some (gl_sync (on_way id (g_pend g)) l)).
  { cbn [gstep g_sync g_live]. apply find_sync. exact HL. }
  split.
  - intro lsn. destruct (read_inv _ _ id _ lsn (reached_inv _ _ HR2) HL2) as (w' & H & _). exists w'. exact H.
  - destruct (c19_recovery _ _ (map fst (w_stores w)) HR2) as (w' & cb & H1 & H2 & _).
    exists w', cb. assert (HE : w_stores (truncate w) = w_stores w) by (unfold truncate; destruct (cut_point w); reflexivity).
    rewrite HE in H1. rewrite filter_all in H1.
    + split; [exact H1|]. apply (H2 id _ ) in HL2; [exact HL2|]. destruct (reached_inv _ _ HR) as (_ & HM & _).
      destruct (both_find' _ _ _ _ _ HM HL) as (s & HS & _). apply mem_id_in. change id with (fst (id, s)). apply in_map. now apply find_id_in.
    + intros k Hk. now apply mem_id_in.
Qed.

(** ** C23 *)
(** A read gives the bytes appended under that lsn and refuses lsns not in the store. *)
Theorem c23_read w g id l lsn : reached w g -> find_id id (g_live g) = Some l ->
  exists w', read_sync w id lsn = Some (w', expected l lsn).
Proof. intros HR HL. destruct (read_inv w g id l lsn (reached_inv _ _ HR) HL) as (w' & H & _). eauto. Qed.

(** ** Runs whose legality is checked by computation *)
Definition cut_clean_b (w : world) : bool :=
  match cut_point w with
  | None => true
  | Some t => forallb (fun r : Z * entry => negb (fst r =? t) ||
                (mem_id (fst (fst (snd r))) (map fst (w_stores w)) && negb (is_rolled_back (d_rb (w_disk w)) (fst (fst (snd r))) t)))
              (records (d_groups (w_disk w)))
  end.
Lemma cut_clean_ok w : cut_clean_b w = true -> cut_clean w.
Proof.
  unfold cut_clean_b, cut_clean. intros H t id lsn d HT HI. rewrite HT in H. rewrite forallb_forall in H. specialize (H _ HI). cbn in H.
  rewrite Z.eqb_refl in H. cbn in H. apply andb_prop in H. destruct H as [H1 H2]. split; [now apply mem_id_in|now apply negb_true_iff].
Qed.
Definition has (g : ghost) id (f : glog -> bool) : bool := match find_id id (g_live g) with Some l => f l | None => false end.
Lemma has_ok g id f : has g id f = true -> exists l, find_id id (g_live g) = Some l /\ f l = true.
Proof. unfold has. destruct (find_id id (g_live g)); [eauto|discriminate]. Qed.
Definition legal_b (w : world) (g : ghost) (o : op) : bool :=
  match o with
  | OAppend id _ => has g id (fun _ => true)
  | OFlush k => Nat.leb 1 k && Nat.leb k (length (g_pend g))
  | OTruncMem id upto => has g id (fun l => (m_from l <=? upto) && (upto <? next_lsn l))
  | OTruncDev id upto => has g id (fun l => m_from l <=? upto) &&
                         match truncate_mem w id upto with Some (w', true) => cut_clean_b w' | _ => true end
  | ODevTrunc => cut_clean_b w
  | ORollback id to => has g id (fun l => (m_from l - 1 <=? to) &&
        ((to <? next_lsn l - 1 - Z.of_nat (on_way id (g_pend g))) || (Nat.eqb (on_way id (g_pend g)) 0 && (to =? next_lsn l - 1))))
  | OCreate id => match find_id id (d_sb (w_disk w)) with None => true | _ => false end
  | ORemove id => has g id (fun _ => true) && Nat.eqb (on_way id (g_pend g)) 0
  | OCrash _ => true
  end.
Lemma legal_ok w g o : legal_b w g o = true -> legal w g o.
Proof.
  destruct o; cbn [legal_b legal]; intro H.
  - destruct (has_ok _ _ _ H) as (l & H1 & _). eauto.
  - apply andb_prop in H. destruct H as [H1 H2]. apply Nat.leb_le in H1, H2. auto.
  - destruct (has_ok _ _ _ H) as (l & H1 & H2). exists l. split; [exact H1|lia].
  - apply andb_prop in H. destruct H as [H1 H2]. destruct (has_ok _ _ _ H1) as (l & H3 & H4). split; [exists l; split; [exact H3|lia]|].
    intros w' HW. rewrite HW in H2. now apply cut_clean_ok.
  - now apply cut_clean_ok.
  - destruct (has_ok _ _ _ H) as (l & H1 & H2). exists l. split; [exact H1|lia].
  - destruct (find_id id (d_sb (w_disk w))); [discriminate|reflexivity].
  - apply andb_prop in H. destruct H as [H1 H2]. destruct (has_ok _ _ _ H1) as (l & H3 & _). apply Nat.eqb_eq in H2. eauto.
  - exact I.
Qed.
Fixpoint run (w : world) (g : ghost) (os : list op) : option (world * ghost) :=
  match os with
  | [] => Some (w, g)
  | o :: r => if legal_b w g o then match exec w o with Some w' => run w' (gstep g o) r | None => None end else None
  end.
Lemma run_ok os : forall w g w' g', reached w g -> run w g os = Some (w', g') -> reached w' g'.
Proof.
  induction os as [|o os IH]; intros w g w' g' HR; cbn; [intro H; injection H as -> ->; exact HR|].
  destruct (legal_b w g o) eqn:EL; [|discriminate]. destruct (exec w o) as [w1|] eqn:EX; [|discriminate].
  apply IH. eapply reached_step; eauto using legal_ok.
Qed.
Definition start (os : list op) := run fresh (Ghost [] []) os.
Lemma start_ok os w g : start os = Some (w, g) -> reached w g.
Proof. apply run_ok. constructor. Qed.

(** Two stores sharing groups, truncation in memory and on the device, a rollback, an append on
    its way, a removed store. *)
Definition busy : list op :=
  [OCreate 1; OCreate 2; OAppend 1 [11]; OAppend 2 [21]; OFlush 2; OAppend 1 [12]; OAppend 2 [22]; OAppend 1 [13]; OFlush 2; OFlush 1;
   OTruncDev 2 1; OTruncDev 1 1; OAppend 1 [14]; OAppend 1 [15]; OFlush 2; ORollback 1 2; OAppend 1 [16]; OFlush 1;
   OCreate 3; OAppend 3 [31]; OFlush 1; ORemove 3; OAppend 2 [23]; OTruncMem 1 2; OAppend 1 [17]]%N.
Example busy_runs : exists w g, start busy = Some (w, g) /\ reached w g /\
  g_live g = [(1, GL 2 [[13]; [16]] 3 [[16]; [17]]); (2, GL 2 [[23]] 2 [[23]])]%N /\
  g_pend g = [(1, [17])]%N /\ d_start (w_disk w) = 2.
Proof. eexists _, _. split; [vm_compute; reflexivity|]. split; [apply (start_ok busy); vm_compute; reflexivity|]. vm_compute. auto. Qed.
Example busy_recovered : exists w g w' cb, start busy = Some (w, g) /\ restart (w_disk w) [1; 2]%N = Some (w', cb) /\
  calls_of 1 cb = [(2, [13%N]); (3, [16%N])] /\ calls_of 2 cb = [(2, [23%N])] /\ calls_of 3 cb = [].
Proof. eexists _, _, _, _. split; [vm_compute; reflexivity|]. split; [vm_compute; reflexivity|]. vm_compute. auto. Qed.
Example busy_reads : exists w g w' w2, start busy = Some (w, g) /\
  read_sync w 1 4 = Some (w', Value [17%N]) /\ read_sync w 1 3 = Some (w2, Value [16%N]) /\ read_sync w 1 2 = Some (w2, Refused) /\
  read_sync w 2 3 = Some (w2, Refused).
Proof. eexists _, _, _, _. split; [vm_compute; reflexivity|]. vm_compute. auto. Qed.
(** The log may be cut, and there is something to cut. *)
Definition to_cut : list op :=
  [OCreate 1; OCreate 2; OAppend 1 [11]; OAppend 2 [21]; OFlush 2; OAppend 1 [12]; OAppend 2 [22]; OFlush 2; OAppend 2 [23]; OFlush 1;
   OTruncMem 1 1; OTruncMem 2 1; OAppend 1 [13]]%N.
Example cut_possible : exists w g, start to_cut = Some (w, g) /\ reached w g /\ cut_clean w /\ cut_point w = Some 2 /\
  length (d_groups (w_disk w)) = 3%nat /\ length (d_groups (w_disk (truncate w))) = 2%nat.
Proof.
  eexists _, _. split; [vm_compute; reflexivity|]. split; [apply (start_ok to_cut); vm_compute; reflexivity|].
  split; [apply cut_clean_ok; vm_compute; reflexivity|]. vm_compute. auto.
Qed.

(** ** C21 *)
(** The entries a rollback takes away are not handed out by a restart after it, nor after any
    legal operations in between (c19_recovery: what is handed out is what the plain lists
    have).  Legal leaves out cutting the log at a rolled back record: see the refutation. *)
Theorem c21_rollback_holds_partial w g id to w' keep : reached w g -> legal w g (ORollback id to) -> exec w (ORollback id to) = Some w' ->
  exists w2 cb, restart (w_disk w') (filter (fun id => mem_id id keep) (map fst (w_stores w'))) = Some (w2, cb) /\
    forall lsn d, In (lsn, d) (calls_of id cb) -> lsn <= to.
Proof.
  intros HR HL HE. assert (HR2 : reached w' (gstep g (ORollback id to))) by (econstructor; eauto).
  destruct (c19_recovery _ _ keep HR2) as (w2 & cb & H1 & H2 & H3 & _). exists w2, cb. split; [exact H1|]. intros lsn d HI.
  destruct (mem_id id keep) eqn:EK; [|rewrite (H3 id (or_intror EK)) in HI; destruct HI].
  destruct HL as (l & HL & HB & _).
  set (g1 := if Nat.eqb (on_way id (g_pend g)) 0 then g else g_flush_all g) in *.
  assert (HL1 : exists l1, find_id id (g_live g1) = Some l1 /\ p_from l1 <= to + 1).
  { assert (HR1 : exists w1, inv w1 g1).
    { unfold g1. destruct (Nat.eqb _ 0); [exists w; now apply reached_inv|]. destruct (flush_inv w g (reached_inv _ _ HR)) as (w1 & _ & HI1 & _). eauto. }
    assert (HF : exists l1, find_id id (g_live g1) = Some l1 /\ m_from l1 = m_from l).
    { unfold g1. destruct (Nat.eqb _ 0); [eauto|]. destruct (g_flush_mem (length (g_pend g)) g id l HL) as (l1 & HL1 & HLF & _). exists l1. split; [exact HL1|exact HLF]. }
    destruct HF as (l1 & HF1 & HF2), HR1 as (w1 & HB1 & HM1 & HD1). exists l1. split; [exact HF1|].
    destruct (both_find' _ _ _ _ _ HD1 HF1) as (_ & _ & _ & _ & HF & _). lia. }
  destruct HL1 as (l1 & HL1 & HP1).
  assert (HG : find_id id (g_live (gstep g (ORollback id to))) = Some (gl_rollback to l1)).
  { cbn [gstep g_live]. fold g1. clear - HL1. unfold on_store. induction (g_live g1) as [|[k v] r IH]; cbn in *; [discriminate|].
    destruct (k =? id)%N eqn:E; cbn; rewrite E; [injection HL1 as ->; reflexivity|auto]. }
  rewrite (H2 id _ EK HG) in HI. cbn [gl_rollback p_from p_items] in HI. clear - HI HP1.
  assert (HX : forall (items : list data) from n, In (lsn, d) (number from (firstn n items)) -> lsn < from + Z.of_nat n).
  { induction items as [|x r IH]; intros from [|n] H; cbn [firstn number] in H; [destruct H|destruct H|destruct H|destruct H as [H|H]].
    - injection H as <- <-. lia.
    - apply IH in H. lia. }
  apply HX in HI. lia.
Qed.
(** What happens otherwise: store 1 rolls entry 1 back, store 2 truncates so that the log is
    cut at that entry, and a restart hands the entry to store 1. *)
Definition before_cut : list op :=
  [OCreate 1; OCreate 2; OAppend 1 [11]; OFlush 1; OAppend 1 [12]; OAppend 2 [21]; OFlush 2; OAppend 2 [22]; OFlush 1;
   OTruncMem 1 0; ORollback 1 0]%N.
Theorem c21_rolled_back_returns_refuted : exists w g w1 w2 cb, start before_cut = Some (w, g) /\ reached w g /\
  exec w (OTruncDev 2 0) = Some w1 /\ restart (w_disk w1) [1; 2]%N = Some (w2, cb) /\
  In (1, [12%N]) (calls_of 1 cb).
Proof.
  eexists _, _, _, _, _. split; [vm_compute; reflexivity|]. split; [apply (start_ok before_cut); vm_compute; reflexivity|].
  split; [vm_compute; reflexivity|]. split; [vm_compute; reflexivity|]. vm_compute. auto.
Qed.
Example rollback_legal : exists w g w', start (firstn 10 before_cut) = Some (w, g) /\ legal w g (ORollback 1 0) /\ exec w (ORollback 1 0) = Some w'.
Proof.
  eexists _, _, _. split; [vm_compute; reflexivity|]. split; [apply legal_ok; vm_compute; reflexivity|]. vm_compute. reflexivity.
Qed.

(** ** C22 *)
(** A store just created has nothing after a restart. *)
Theorem c22_new_store_empty_partial w g id keep : reached w g -> legal w g (OCreate id) ->
  exists w2 cb, restart (w_disk (create_store w id)) (filter (fun k => mem_id k keep) (map fst (w_stores (create_store w id)))) = Some (w2, cb) /\
    calls_of id cb = [].
Proof.
  intros HR HL. assert (HR2 : reached (create_store w id) (gstep g (OCreate id))) by (eapply reached_step; [exact HR|exact HL|reflexivity]).
  destruct (c19_recovery _ _ keep HR2) as (w2 & cb & H1 & H2 & H3 & _). exists w2, cb. split; [exact H1|].
  destruct (mem_id id keep) eqn:EK; [|apply H3; auto].
  assert (HG : find_id id (g_live (gstep g (OCreate id))) = Some (GL 0 [] 0 [])).
  { destruct (reached_inv _ _ HR) as (HB & HM & HD). cbn [gstep g_live].
    assert (HN : find_id id (g_live g) = None).
    { destruct (find_id id (g_live g)) as [l|] eqn:E; [|reflexivity]. destruct (both_find' _ _ _ _ _ HD E) as (_ & _ & _ & HS & _). cbn in HL. congruence. }
    clear - HN. induction (g_live g) as [|[k v] r IH]; cbn in *; [now rewrite N.eqb_refl|]. destruct (k =? id)%N; [discriminate|auto]. }
  rewrite (H2 id _ EK HG). reflexivity.
Qed.
(** Store 1 is removed, the log is cut at its last entry and its id becomes free; a new store
    with that id gets the entry after a restart. *)
Definition before_reuse : list op := [OCreate 1; OCreate 2; OAppend 2 [21]; OFlush 1; OAppend 1 [11]; OFlush 1; ORemove 1]%N.
Theorem c22_ghost_entry_refuted : exists w g w1 w2 cb, start before_reuse = Some (w, g) /\ reached w g /\
  exec w (OTruncDev 2 0) = Some w1 /\ find_id 1 (d_sb (w_disk w1)) = None /\
  restart (w_disk (create_store w1 1)) [1; 2]%N = Some (w2, cb) /\ calls_of 1 cb = [(0, [11%N])].
Proof.
  eexists _, _, _, _, _. split; [vm_compute; reflexivity|]. split; [apply (start_ok before_reuse); vm_compute; reflexivity|].
  split; [vm_compute; reflexivity|]. split; [vm_compute; reflexivity|]. split; vm_compute; reflexivity.
Qed.
Example create_legal : exists w g, start before_reuse = Some (w, g) /\ legal w g (OCreate 3).
Proof. eexists _, _. split; vm_compute; reflexivity. Qed.

(** ** C24 *)
(** log_dev.cpp:655-668: the journal is cut, then the superblock is written.  A crash between the
    two, with the groups before the cut gone, fails the assertion of do_load. *)
Definition half_truncated (w : world) (t : Z) : disk :=
  Disk (filter (fun g => t <=? fst g) (d_groups (w_disk w))) (d_start (w_disk w)) (d_sb (w_disk w)) (d_rb (w_disk w)).
Theorem c24_crash_in_truncate_refuted : exists w g t, start to_cut = Some (w, g) /\ reached w g /\ cut_clean w /\ cut_point w = Some t /\
  restart (half_truncated w t) [1; 2]%N = None.
Proof.
  eexists _, _, _. split; [vm_compute; reflexivity|]. split; [apply (start_ok to_cut); vm_compute; reflexivity|].
  split; [apply cut_clean_ok; vm_compute; reflexivity|]. split; vm_compute; reflexivity.
Qed.

(** ** C60 *)
(** A rollback to the last completed entry with more on their way returns true and takes nothing away. *)
Definition before_rollback : list op := [OCreate 1; OAppend 1 [11]; OFlush 1; OAppend 1 [12]]%N.
Theorem c60_rollback_keeps_outstanding_refuted : exists w g w1 w2 w3 cb, start before_rollback = Some (w, g) /\ reached w g /\
  rollback w 1 0 = Some (w1, true) /\ read_sync w1 1 1 = Some (w2, Value [12%N]) /\
  restart (w_disk w2) [1%N] = Some (w3, cb) /\ calls_of 1 cb = [(0, [11%N]); (1, [12%N])].
Proof.
  eexists _, _, _, _, _, _. split; [vm_compute; reflexivity|]. split; [apply (start_ok before_rollback); vm_compute; reflexivity|].
  split; [vm_compute; reflexivity|]. split; [vm_compute; reflexivity|]. split; vm_compute; reflexivity.
Qed.

(** ** C61 *)
(** Writes that complete out of order (write_async with lsns of the caller, or appends that race):
    an entry above the truncation point is cut away. *)
Inductive wop := WWrite (lsn : Z) (d : data) | WFlush.
Definition wstep (w : option world) (o : wop) : option world :=
  match w with
  | None => None
  | Some w => match o with WWrite lsn d => write_at w 1 lsn d | WFlush => flush w end
  end.
Definition disordered : list wop :=
  [WWrite 0 [10]; WWrite 3 [13]; WFlush; WWrite 1 [11]; WFlush; WWrite 4 [14]; WFlush; WWrite 2 [12]; WFlush]%N.
Theorem c61_out_of_order_truncation_refuted : exists w w1 w2 w3 cb,
  fold_left wstep disordered (Some (create_store fresh 1)) = Some w /\
  read_sync w 1 3 = Some (w, Value [13%N]) /\
  truncate_mem w 1 2 = Some (w1, true) /\ w2 = truncate w1 /\
  read_sync w2 1 3 = None /\
  restart (w_disk w2) [1%N] = Some (w3, cb) /\ calls_of 1 cb = [(4, [14%N])].
Proof.
  eexists _, _, _, _, _. split; [vm_compute; reflexivity|]. split; [vm_compute; reflexivity|].
  split; [vm_compute; reflexivity|]. split; [reflexivity|]. split; [vm_compute; reflexivity|]. split; vm_compute; reflexivity.
Qed.

Print Assumptions c19_never_stuck.
Print Assumptions c19_recovery.
Print Assumptions c19_append_goes_on.
Print Assumptions c19_flushed_is_durable.
Print Assumptions c20_truncation_safe.
Print Assumptions c23_read.
Print Assumptions c21_rollback_holds_partial.
Print Assumptions c21_rolled_back_returns_refuted.
Print Assumptions c22_new_store_empty_partial.
Print Assumptions c22_ghost_entry_refuted.
Print Assumptions c24_crash_in_truncate_refuted.
Print Assumptions c60_rollback_keeps_outstanding_refuted.
Print Assumptions c61_out_of_order_truncation_refuted.
