(** What is proved of variable-size nodes: C41, C75, C76. *)
From Coq Require Import NArith List Bool Arith Lia Sorting.Permutation.
From Coq Require Import ZifyBool ZifyNat ZifyN.
From Verif Require Import Base VarNodeModel VarNodeSpec VarNodeProofs.
Import ListNotations.
Local Open Scope N_scope.

Section Run.
Context (kd : kind) (srt : list (N * nat) -> list (N * nat)) (Hsrt : sorts srt).
Context (data : N) (leaf : bool).

Definition rel1 (nd : node) (x : snode) : Prop :=
  inv kd data nd /\ n_leaf nd = leaf /\ abs kd nd = x.
Definition rel (s : state) (ss : sstate) : Prop := forall a, rel1 (s a) (ss a).

Lemma rel_set : forall s ss a x y, rel s ss -> rel1 x y -> rel (set s a x) (sset ss a y).
Proof. intros s ss a x y H H1 i. unfold set, sset. destruct (i =? a)%nat; auto. Qed.

Lemma rel1_intro : forall nd l e, inv kd data nd -> n_leaf nd = leaf -> entries kd nd = l -> n_edge nd = e ->
  rel1 nd (l, e).
Proof. intros nd l e H1 H2 <- <-. split; [assumption|]. split; [assumption|reflexivity]. Qed.

Lemma step_ok : forall s ss o, rel s ss -> legal kd (data - hdr) leaf ss o ->
  exists s', step kd srt s o = Ok (s', snd (sstep kd leaf ss o)) /\ rel s' (fst (sstep kd leaf ss o)).
Proof.
  intros s ss o HR HL.
  assert (HA : forall a, inv kd data (s a) /\ n_leaf (s a) = leaf /\ ss a = abs kd (s a)).
  { intros a. destruct (HR a) as [H1 [H2 H3]]. auto. }
  destruct o as [a i k v|a i k v|a i v|a v|a x y|a x|a|a b size|a b n|a b start size|a b start n];
    destruct (HA a) as [I [Lf E]]; cbn [step sstep legal] in *.
  - rewrite E in *. unfold abs in HL |- *. cbn [fst snd] in *.
    destruct HL as [HS [Hi HRo]]. rewrite entries_length in Hi. pose proof (i_avail _ _ _ I).
    unfold esize in HRo. cbn [fst snd] in HRo.
    destruct (insert_ok kd srt Hsrt data (s a) i k v I HS Hi) as [nd [E1 [J1 [[J2 J3] J4]]]]; [lia|].
    rewrite E1. cbn [bind]. eexists. split; [reflexivity|]. apply rel_set; [assumption|].
    apply rel1_intro; congruence.
  - rewrite E in *. unfold abs in HL |- *. cbn [fst snd] in *.
    destruct HL as [HS [Hi HRo]]. rewrite entries_length in Hi.
    destruct (update_ok kd srt Hsrt data (s a) i k v I HS Hi HRo) as [nd [E1 [J1 [[J2 J3] J4]]]].
    rewrite E1. cbn [bind]. eexists. split; [reflexivity|]. apply rel_set; [assumption|].
    apply rel1_intro; congruence.
  - rewrite E in *. unfold abs in HL |- *. cbn [fst snd] in *.
    destruct HL as [HS [Hi HRo]]. rewrite entries_length in Hi. unfold update_value.
    replace (i =? count (s a))%nat with false by lia.
    destruct (nth_error (n_recs (s a)) i) as [r|] eqn:Er;
      [|apply nth_error_None in Er; unfold count in Hi; lia].
    assert (HN : nth_error (entries kd (s a)) i = Some (key_at kd (s a) r, val_at kd (s a) r))
      by (unfold entries; now rewrite nth_error_map, Er).
    assert (Hk : fst (nth i (entries kd (s a)) ([], [])) = key_at kd (s a) r)
      by now rewrite (nth_error_nth _ _ _ HN).
    rewrite Hk in HS, HRo |- *.
    destruct (update_ok kd srt Hsrt data (s a) i _ v I HS Hi HRo) as [nd [E1 [J1 [[J2 J3] J4]]]].
    rewrite E1. cbn [bind]. eexists. split; [reflexivity|]. apply rel_set; [assumption|].
    apply rel1_intro; congruence.
  - unfold update_value. rewrite Nat.eqb_refl, Lf, HL. cbn [bind]. eexists. split; [reflexivity|].
    apply rel_set; [assumption|]. destruct (with_edge_ok kd data (s a) (Some v) I) as [J1 J2].
    rewrite E. unfold abs. cbn [fst]. apply rel1_intro; [exact J1|exact Lf|exact J2|reflexivity].
  - rewrite E in *. unfold abs in HL |- *. cbn [fst snd] in *. destruct HL as [H1 H2].
    rewrite entries_length in H2.
    destruct (remove_ok kd data (s a) x y I H1 H2) as [nd [E1 [J1 [[J2 J3] J4]]]].
    rewrite E1. cbn [bind]. eexists. split; [reflexivity|]. apply rel_set; [assumption|].
    apply rel1_intro; congruence.
  - rewrite E in *. unfold abs in HL |- *. cbn [fst snd] in *. destruct HL as [H1 [H2 H3]].
    rewrite entries_length in H2.
    destruct (remove_to_edge_ok kd data (s a) x I) as [nd [E1 [J1 [J2 [J3 J4]]]]]; [congruence|assumption..|].
    rewrite E1. cbn [bind]. eexists. split; [reflexivity|]. apply rel_set; [assumption|].
    apply rel1_intro; congruence.
  - eexists. split; [reflexivity|]. apply rel_set; [assumption|]. pose proof I as [I1 I2 I3 I4 I5 I6 I7].
    pose proof (rs_small kd). apply rel1_intro; [|exact Lf|reflexivity|reflexivity].
    constructor; unfold remove_all; cbn [n_data n_init n_tail n_avail n_recs count entries used]; auto.
    + rewrite w16_small by lia. congruence.
    + unfold count. cbn [n_recs length]. rewrite w16_small by lia. rewrite I1. lia.
    + cbn. rewrite w16_small, sub16_small by lia. unfold hdr in *. lia.
    + intros r [].
    + intros i j x y Hx. destruct i; discriminate.
  - destruct (HA b) as [Ib [Lb Eb]]. destruct HL as [Hab [Hne HRo]]. rewrite E, Eb in *.
    destruct (move_by_size_ok kd srt Hsrt data (s a) (s b) size I Ib) as [x [y [E1 [J1 [J2 [J3 [J4 J5]]]]]]].
    + congruence.
    + exact Hne.
    + rewrite Lf. exact HRo.
    + rewrite Lf in J5. rewrite J5. rewrite E1. cbn [bind fst snd]. eexists. split; [reflexivity|].
      apply rel_set; [apply rel_set; [assumption|]|]; (split; [assumption|split; [congruence|reflexivity]]).
  - destruct (HA b) as [Ib [Lb Eb]]. destruct HL as [Hab HRo]. rewrite E, Eb in *.
    assert (Hlen : length (fst (abs kd (s a))) = count (s a)) by apply entries_length.
    rewrite Hlen in *.
    destruct (move_by_entries_ok kd srt Hsrt data (s a) (s b) n I Ib) as [x [y [ret [E1 [J1 [J2 [J3 [J4 [J5 J6]]]]]]]]].
    + congruence.
    + rewrite Lf. exact HRo.
    + rewrite E1. cbn [bind]. rewrite Lf in J5. destruct (Nat.min n (count (s a)) =? 0)%nat.
      * eexists. split; [reflexivity|]. cbn [fst]. injection J5 as J5 J5' J7 J7'.
        intros i. unfold set. destruct (Nat.eqb_spec i b) as [->|]; [|destruct (Nat.eqb_spec i a) as [->|]; [|apply HR]].
        -- split; [assumption|]. split; [congruence|]. rewrite Eb. unfold abs. congruence.
        -- split; [assumption|]. split; [congruence|]. rewrite E. unfold abs. congruence.
      * rewrite <- J5. eexists. split; [reflexivity|]. cbn [fst].
        apply rel_set; [apply rel_set; [assumption|]|]; (split; [assumption|split; [congruence|reflexivity]]).
  - destruct (HA b) as [Ib [Lb Eb]]. destruct HL as [Hab HRo]. rewrite E, Eb in *.
    unfold copy_by_size.
    assert (HM : map (ent_of kd (s b)) (skipn start (n_recs (s b))) = skipn start (entries kd (s b)))
      by (unfold entries; now rewrite skipn_map).
    destruct (copy_size_loop_ok kd srt Hsrt data (s b) (skipn start (n_recs (s b))) (s a) size 0 I)
      as [nd [E1 [J1 [[J2 J3] J4]]]].
    + rewrite HM. exact HRo.
    + rewrite HM in *. rewrite E1. cbn [bind Nat.add]. eexists. split; [reflexivity|].
      destruct (copy_edge_ok kd data nd (s b) start _ _ J1 J4) as [K1 [K2 K3]].
      apply rel_set; [assumption|]. split; [exact K1|]. split; [congruence|].
      cbn [abs fst]. rewrite K3, J3. reflexivity.
  - destruct (HA b) as [Ib [Lb Eb]]. destruct HL as [Hab [Hst HRo]]. rewrite E, Eb in *.
    unfold abs in Hst. cbn [fst] in Hst. rewrite entries_length in Hst.
    assert (Hlen : length (fst (abs kd (s b))) = count (s b)) by apply entries_length.
    rewrite Hlen in *. unfold copy_by_entries. replace (count (s b) <? start)%nat with false by lia.
    set (n' := Nat.min n (count (s b) - start)) in *.
    assert (HM : map (ent_of kd (s b)) (firstn n' (skipn start (n_recs (s b)))) =
      firstn n' (skipn start (entries kd (s b))))
      by (unfold entries; now rewrite skipn_map, firstn_map).
    destruct (copy_entries_loop_ok kd srt Hsrt data (s b) (firstn n' (skipn start (n_recs (s b)))) (s a) I)
      as [nd [E1 [J1 [[J2 J3] J4]]]].
    + rewrite HM. exact HRo.
    + rewrite HM in *. rewrite E1. cbn [bind]. eexists. split; [reflexivity|].
      destruct (copy_edge_ok kd data nd (s b) start _ _ J1 J4) as [K1 [K2 K3]].
      apply rel_set; [assumption|]. split; [exact K1|]. split; [congruence|].
      cbn [abs fst]. rewrite K3, J3. reflexivity.
Qed.

Lemma run_ok : forall ops s ss, rel s ss -> legal_run kd (data - hdr) leaf ss ops ->
  exists s', run kd srt s ops = Ok (s', snd (srun kd leaf ss ops)) /\ rel s' (fst (srun kd leaf ss ops)).
Proof.
  induction ops as [|o ops IH]; intros s ss HR HL; cbn [run srun legal_run] in *.
  - exists s. split; [reflexivity|assumption].
  - destruct HL as [H1 H2]. destruct (step_ok s ss o HR H1) as [s1 [E1 R1]].
    destruct (sstep kd leaf ss o) as [ss1 x]. cbn [fst snd] in *. rewrite E1. cbn [bind].
    destruct (IH s1 ss1 R1 H2) as [s2 [E2 R2]]. rewrite E2. cbn [bind].
    destruct (srun kd leaf ss1 ops) as [ss2 xs]. cbn [fst snd] in *. eauto.
Qed.

Lemma new_rel : hdr <= data -> data < 16384 -> forall m,
  rel (fun _ => new_node data leaf m) (fun _ => ([], None)).
Proof.
  intros H1 H2 m a. apply rel1_intro; try reflexivity.
  constructor; unfold new_node; cbn [n_data n_init n_tail n_avail n_recs]; auto.
  - apply w16_small. lia.
  - unfold count. cbn [n_recs length]. rewrite w16_small by lia. lia.
  - cbn. rewrite w16_small, sub16_small by lia. unfold hdr in *. lia.
  - intros r [].
  - intros i j x y Hx. destruct i; discriminate.
Qed.

End Run.

(** ** C41 *)

(** Any number of nodes of one kind and any operations on them that fit: no
    operation fails or writes where it should not, every node holds exactly the
    entries and the edge it should, the available space is what is left, and
    the objects lie apart, behind the records and inside the node. *)
Theorem c41_entries : forall kd srt data leaf m ops, sorts srt -> hdr <= data -> data < 16384 ->
  legal_run kd (data - hdr) leaf (fun _ => ([], None)) ops ->
  exists s, run kd srt (fun _ => new_node data leaf m) ops =
              Ok (s, snd (srun kd leaf (fun _ => ([], None)) ops)) /\
  forall a, let x := fst (srun kd leaf (fun _ => ([], None)) ops) a in
    entries kd (s a) = fst x /\ n_edge (s a) = snd x /\
    n_avail (s a) + hdr + used kd (fst x) = data /\
    (forall r, In r (n_recs (s a)) ->
       hdr + N.of_nat (length (n_recs (s a))) * rec_size kd <= r_off r /\ r_off r + osize kd r <= data) /\
    (forall i j r r', nth_error (n_recs (s a)) i = Some r -> nth_error (n_recs (s a)) j = Some r' ->
       i <> j -> r_off r + osize kd r <= r_off r' \/ r_off r' + osize kd r' <= r_off r).
Proof.
  intros kd srt data leaf m ops Hsrt H1 H2 HL.
  destruct (run_ok kd srt Hsrt data leaf ops _ _ (new_rel kd data leaf H1 H2 m) HL) as [s [E R]].
  exists s. split; [exact E|]. intros a x. destruct (R a) as [I [Lf Ha]]. fold x in Ha.
  pose proof I as [I1 I2 I3 I4 I5 I6 I7].
  rewrite <- Ha. cbn [abs fst snd]. split; [reflexivity|]. split; [reflexivity|]. split; [exact I5|].
  split; [|exact I7]. intros r Hr. specialize (I6 r Hr). unfold count in I4. lia.
Qed.
Print Assumptions c41_entries.

(** Insert stops in its release assert exactly when the entry does not fit in
    what is available. *)
Theorem c41_insert_room : forall kd srt data leaf m ops s xs a i k v, sorts srt -> hdr <= data ->
  data < 16384 -> legal_run kd (data - hdr) leaf (fun _ => ([], None)) ops ->
  run kd srt (fun _ => new_node data leaf m) ops = Ok (s, xs) ->
  shape kd k v -> (i <= length (entries kd (s a)))%nat -> blen k + blen v + rec_size kd < 65536 ->
  (insert kd srt (s a) i k v = Stop NoRoom <->
   data < hdr + used kd (entries kd (s a)) + esize kd (k, v)) /\
  ((exists nd, insert kd srt (s a) i k v = Ok nd) <->
   hdr + used kd (entries kd (s a)) + esize kd (k, v) <= data).
Proof.
  intros kd srt data leaf m ops s xs a i k v Hsrt H1 H2 HL HR HS Hi Hsz.
  destruct (run_ok kd srt Hsrt data leaf ops _ _ (new_rel kd data leaf H1 H2 m) HL) as [s' [E R]].
  rewrite HR in E. injection E as -> _. destruct (R a) as [I _]. rewrite entries_length in Hi.
  pose proof (i_avail _ _ _ I) as HA. unfold esize. cbn [fst snd].
  destruct (N.leb_spec (blen k + blen v + rec_size kd) (n_avail (s' a))) as [Hf|Hf].
  - destruct (insert_ok kd srt Hsrt data (s' a) i k v I HS Hi Hf) as [nd [E1 _]]. rewrite E1.
    split; [split; [discriminate|lia]|]. split; [lia|eauto].
  - assert (HN : insert kd srt (s' a) i k v = Stop NoRoom).
    { unfold insert. replace (count (s' a) <? i)%nat with false by lia.
      pose proof (rs_small kd). rewrite (w16_small (blen k + blen v)) by lia. rewrite w16_small by lia.
      replace (n_avail (s' a) <? _) with true by lia. reflexivity. }
    rewrite HN. split; [split; [lia|reflexivity]|]. split; [intros [nd Hnd]; discriminate|lia].
Qed.
Print Assumptions c41_insert_room.

(** has_room_for_put: its answer is enough for the put that follows. *)
Theorem c41_has_room : forall kd srt data leaf m ops s xs a i k v, sorts srt -> hdr <= data ->
  data < 16384 -> legal_run kd (data - hdr) leaf (fun _ => ([], None)) ops ->
  run kd srt (fun _ => new_node data leaf m) ops = Ok (s, xs) -> shape kd k v ->
  (has_room_for_put kd false (s a) (blen k) (blen v) = true ->
   (i <= length (entries kd (s a)))%nat -> exists nd, insert kd srt (s a) i k v = Ok nd) /\
  (has_room_for_put kd true (s a) (blen k) (blen v) = true ->
   (i < length (entries kd (s a)))%nat -> exists nd, update kd srt (s a) i k v = Ok nd).
Proof.
  intros kd srt data leaf m ops s xs a i k v Hsrt H1 H2 HL HR HS.
  destruct (run_ok kd srt Hsrt data leaf ops _ _ (new_rel kd data leaf H1 H2 m) HL) as [s' [E R]].
  rewrite HR in E. injection E as -> _. destruct (R a) as [I _]. rewrite entries_length.
  pose proof (i_avail _ _ _ I) as HA. unfold has_room_for_put. split; intros Hroom Hi.
  - destruct (insert_ok kd srt Hsrt data (s' a) i k v I HS Hi) as [nd [E1 _]]; [lia|eauto].
  - destruct (update_ok kd srt Hsrt data (s' a) i k v I HS Hi) as [nd [E1 _]]; [|eauto].
    unfold esize. cbn [fst snd]. lia.
Qed.
Print Assumptions c41_has_room.

(** *** A case *)

Fixpoint ins_desc (x : N * nat) (l : list (N * nat)) : list (N * nat) :=
  match l with
  | [] => [x]
  | y :: r => if fst y <=? fst x then x :: l else y :: ins_desc x r
  end.
Definition isort (l : list (N * nat)) : list (N * nat) := fold_right ins_desc [] l.

Lemma isort_sorts : sorts isort.
Proof.
  intros l. unfold isort. induction l as [|x l [IH1 IH2]]; cbn; [split; [constructor|exact I]|].
  set (r := fold_right ins_desc [] l) in *. clearbody r.
  assert (HP : forall r, Permutation (ins_desc x r) (x :: r)).
  { induction r0 as [|y r0 IHr]; cbn; [reflexivity|]. destruct (fst y <=? fst x); [reflexivity|].
    rewrite IHr. apply perm_swap. }
  split; [rewrite HP; now constructor|]. clear IH1 l. induction r as [|y r IHr]; cbn; [auto|].
  destruct (N.leb_spec (fst y) (fst x)) as [H|H].
  - cbn in *. destruct IH2 as [H1 H2]. split; [|auto]. constructor; [assumption|].
    eapply Forall_impl; [|exact H1]. cbn. lia.
  - cbn in *. destruct IH2 as [H1 H2]. split; [|auto].
    eapply Permutation_Forall; [symmetry; apply HP|]. constructor; [lia|assumption].
Qed.

(** Legality as a computation. *)
Definition shape_b (kd : kind) (k v : bytes) : bool :=
  match kd with VarKey vsz => blen v =? vsz | VarValue ksz => blen k =? ksz | VarObj => true end.
Definition legal_b (kd : kind) (cap : N) (leaf : bool) (s : sstate) (o : op) : bool :=
  match o with
  | Insert a i k v =>
      shape_b kd k v && (i <=? length (fst (s a)))%nat && (used kd (fst (s a)) + esize kd (k, v) <=? cap)
  | Update a i k v =>
      shape_b kd k v && (i <? length (fst (s a)))%nat &&
      (used kd (fst (s a)) + esize kd (k, v) <=? cap + esize kd (nth i (fst (s a)) ([], [])))
  | SetEdge a v => negb leaf
  | Remove a x y => (x <=? S y)%nat && (y <? length (fst (s a)))%nat
  | MoveSize a b size =>
      negb (a =? b)%nat && negb (length (fst (s a)) =? 0)%nat &&
      (used kd (fst (snd (split_off leaf (s a) (s b) (size_moved kd (s a) size)))) <=? cap)
  | CopySize a b start size =>
      negb (a =? b)%nat &&
      (used kd (fst (append (s a) (s b) start (prefix_in kd (skipn start (fst (s b))) size))) <=? cap)
  | _ => false
  end.
Fixpoint legal_run_b (kd : kind) (cap : N) (leaf : bool) (s : sstate) (ops : list op) : bool :=
  match ops with
  | [] => true
  | o :: r => legal_b kd cap leaf s o && legal_run_b kd cap leaf (fst (sstep kd leaf s o)) r
  end.

Lemma shape_b_ok : forall kd k v, shape_b kd k v = true -> shape kd k v.
Proof. intros kd k v. unfold shape, shape_b. destruct kd; intros H; [lia|lia|exact I]. Qed.

Lemma legal_run_b_ok : forall kd cap leaf ops s, legal_run_b kd cap leaf s ops = true ->
  legal_run kd cap leaf s ops.
Proof.
  intros kd cap leaf. induction ops as [|o ops IH]; intros s H; cbn in *; [exact I|].
  apply andb_true_iff in H. destruct H as [H1 H2]. split; [|auto].
  destruct o; cbn [legal legal_b] in *; try discriminate; rewrite ?andb_true_iff in H1;
    rewrite ?negb_true_iff in H1.
  - destruct H1 as [[H1 H3] H4]. split; [now apply shape_b_ok|]. lia.
  - destruct H1 as [[H1 H3] H4]. split; [now apply shape_b_ok|]. lia.
  - assumption.
  - lia.
  - destruct H1 as [[H1 H3] H4]. split; [lia|]. split; [|lia].
    intros HN. rewrite HN in H3. discriminate.
  - lia.
Qed.

(** A node of 60 bytes: entries come and go until only compaction makes room,
    an entry grows, one is moved to a second node, another copied back. *)
Definition b (n : nat) (x : N) : bytes := repeat x n.
Definition ops60 : list op :=
  [Insert 0 0 (b 2 1) (b 8 1); Insert 0 1 (b 2 2) (b 4 2); Insert 0 1 (b 3 3) (b 5 3);
   Remove 0 1 1; Insert 0 2 (b 1 4) (b 7 4); Remove 0 0 0; Insert 0 0 (b 2 5) (b 9 5);
   Update 0 1 (b 2 6) (b 6 6); Update 0 0 (b 2 7) (b 3 7); MoveSize 0 1 15; CopySize 0 1 0 100]%nat.

Example c41_example :
  legal_run VarObj (60 - hdr) true (fun _ => ([], None)) ops60 /\
  exists s xs, run VarObj isort (fun _ => new_node 60 true (fun _ => 0)) ops60 = Ok (s, xs) /\
    entries VarObj (s 0%nat) = [(b 2 7, b 3 7); (b 2 6, b 6 6); (b 1 4, b 7 4)] /\
    entries VarObj (s 1%nat) = [(b 1 4, b 7 4)] /\ xs = [0;0;0;0;0;0;0;0;0;1;1]%nat.
Proof.
  split; [apply legal_run_b_ok; vm_compute; reflexivity|].
  destruct (run VarObj isort (fun _ => new_node 60 true (fun _ => 0)) ops60) as [[s xs]|] eqn:E;
    [|vm_compute in E; discriminate].
  exists s, xs. split; [reflexivity|].
  assert (HE : match run VarObj isort (fun _ => new_node 60 true (fun _ => 0)) ops60 with
    | Ok (s, xs) => (entries VarObj (s 0%nat), entries VarObj (s 1%nat), xs)
    | Stop _ => ([], [], [])
    end = ([(b 2 7, b 3 7); (b 2 6, b 6 6); (b 1 4, b 7 4)], [(b 1 4, b 7 4)],
           [0;0;0;0;0;0;0;0;0;1;1]%nat)) by (vm_compute; reflexivity).
  rewrite E in HE. injection HE as H1 H2 H3. auto.
Qed.

(** ** C75: large nodes *)

(** The place of an object has 14 bits.  In a node of 32 KiB it does not fit and
    the entry is read from somewhere else. *)
Theorem c75_large_node_refuted : exists data k v nd,
  data = 32768 - 64 /\
  insert VarObj isort (new_node data true (fun _ => 0)) 0 k v = Ok nd /\
  entries VarObj nd <> [(k, v)].
Proof.
  exists (32768 - 64), [1; 2], [3; 4].
  destruct (insert VarObj isort (new_node (32768 - 64) true (fun _ => 0)) 0 [1; 2] [3; 4]) as [nd|] eqn:E;
    [|vm_compute in E; discriminate].
  exists nd. split; [reflexivity|]. split; [reflexivity|].
  assert (HE : match insert VarObj isort (new_node (32768 - 64) true (fun _ => 0)) 0 [1; 2] [3; 4] with
    | Ok nd => entries VarObj nd
    | Stop _ => [([1; 2], [3; 4])]
    end = [([0; 0], [0; 0])]) by (vm_compute; reflexivity).
  rewrite E in HE. rewrite HE. discriminate.
Qed.
Print Assumptions c75_large_node_refuted.

(** ** C76: how many entries were moved *)

(** move_out_to_right_by_entries answers one less after moving everything. *)
Theorem c76_moved_refuted : exists nd other a b n,
  length (entries VarObj nd) = 3%nat /\ entries VarObj other = [] /\
  move_right_by_entries VarObj isort nd other 3 = Ok (a, b, n) /\
  entries VarObj a = [] /\ entries VarObj b = entries VarObj nd /\ n = 2%nat.
Proof.
  set (nd0 := new_node 200 true (fun _ => 0)).
  set (f := fun x => match x with Ok y => y | Stop _ => nd0 end).
  set (nd := f (insert VarObj isort (f (insert VarObj isort (f (insert VarObj isort nd0 0 [1] [1])) 1 [2] [2])) 2 [3] [3])).
  exists nd, nd0.
  destruct (move_right_by_entries VarObj isort nd nd0 3) as [[[x y] n]|] eqn:E;
    [|vm_compute in E; discriminate].
  exists x, y, n.
  assert (HE : match move_right_by_entries VarObj isort nd nd0 3 with
    | Ok (x, y, n) => (entries VarObj x, entries VarObj y, n)
    | Stop _ => ([], [], 0%nat)
    end = ([], entries VarObj nd, 2%nat)) by (vm_compute; reflexivity).
  rewrite E in HE. injection HE as H1 H2 H3.
  split; [vm_compute; reflexivity|]. split; [reflexivity|]. auto.
Qed.
Print Assumptions c76_moved_refuted.

(** It is right whenever something stays, for nodes any legal history led to. *)
Theorem c76_moved_partial : forall kd srt data leaf m ops s xs i j n, sorts srt -> hdr <= data ->
  data < 16384 -> legal_run kd (data - hdr) leaf (fun _ => ([], None)) ops ->
  run kd srt (fun _ => new_node data leaf m) ops = Ok (s, xs) ->
  let l := entries kd (s i) in
  let l' := entries kd (s j) in
  hdr + used kd (skipn (length l - n) l ++ l') <= data -> (n < length l)%nat ->
  exists a b, move_right_by_entries kd srt (s i) (s j) n = Ok (a, b, n) /\
    entries kd a = firstn (length l - n) l /\ entries kd b = skipn (length l - n) l ++ l'.
Proof.
  intros kd srt data leaf m ops s xs i j n Hsrt H1 H2 HG HRun l l' HR Hn.
  destruct (run_ok kd srt Hsrt data leaf ops _ _ (new_rel kd data leaf H1 H2 m) HG) as [s' [E' R]].
  rewrite HRun in E'. injection E' as <- _. destruct (R i) as [HI [Li _]]. destruct (R j) as [HO [Lj _]].
  unfold l, l' in *. clear l l'. rewrite entries_length in *.
  pose proof (move_by_entries_ok kd srt Hsrt data (s i) (s j) n HI HO) as H. cbv zeta in H.
  rewrite Nat.min_l in H by lia. unfold split_off, abs in H. cbn [fst snd] in H.
  rewrite entries_length in H.
  destruct H as [a [b0 [ret [E [_ [_ [_ [_ [H3 H4]]]]]]]]]; [congruence| |].
  { destruct (_ || _); cbn [fst snd]; lia. }
  replace (n =? count (s i))%nat with false in H4 by lia. subst ret. exists a, b0. split; [exact E|].
  destruct (Nat.eqb_spec n 0) as [->|].
  - injection H3 as H3 _ H4 _. rewrite H3, H4, Nat.sub_0_r, firstn_all2, skipn_all2; auto; rewrite entries_length; lia.
  - destruct (_ || _) in H3; injection H3 as H3 _ H4 _; auto.
Qed.
Print Assumptions c76_moved_partial.
