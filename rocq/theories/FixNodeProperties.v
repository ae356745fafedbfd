(** What is proved of nodes with entries of one size: C112. *)
From Coq Require Import NArith List Bool Arith Lia.
From Coq Require Import ZifyBool ZifyNat.
From Verif Require Import FixNodeModel FixNodeSpec FixNodeProofs.
Import ListNotations.

(** ** C112 *)

(** Any number of nodes of one kind and any operations on them: no operation
    fails or touches a byte outside the data area, every node holds exactly the
    entries and the edge it should, what the moves and copies return is what
    they did, and the available size is what is left. *)
Theorem c112_entries : forall ks vs data leaf m ops, 0 < ks + vs ->
  legal_run ks vs (data / (ks + vs)) leaf (fun _ => ([], None)) ops ->
  exists s, run ks vs (fun _ => new_node data leaf m) ops =
              Ok (s, snd (srun ks vs (data / (ks + vs)) (fun _ => ([], None)) ops)) /\
  forall a, let x := fst (srun ks vs (data / (ks + vs)) (fun _ => ([], None)) ops) a in
    entries ks vs (s a) = fst x /\ f_edge (s a) = snd x /\
    available_size ks vs (s a) + length (fst x) * (ks + vs) = data.
Proof.
  intros ks vs data leaf m ops Hp HL.
  destruct (run_ok ks vs Hp data leaf ops _ _ (new_rel ks vs data leaf m) HL) as [s [E R]].
  exists s. split; [exact E|]. intros a x. destruct (R a) as [R1 [R2 [R3 [R4 [R5 R6]]]]]. fold x in R5, R6.
  split; [exact R5|]. split; [exact R6|]. rewrite <- R5, entries_length. unfold available_size.
  rewrite R1. apply (cap_fits ks vs Hp) in R3. unfold obj in *. nia.
Qed.
Print Assumptions c112_entries.

(** The code has no check for room: insert keeps inside the node exactly when
    one more entry fits; has_room_for_put says just that. *)
Theorem c112_insert_room : forall ks vs data leaf m ops s xs a i k v, 0 < ks + vs ->
  legal_run ks vs (data / (ks + vs)) leaf (fun _ => ([], None)) ops ->
  run ks vs (fun _ => new_node data leaf m) ops = Ok (s, xs) ->
  length k = ks -> length v = vs -> i <= length (entries ks vs (s a)) ->
  (has_room_for_put ks vs false (s a) = true <->
     (length (entries ks vs (s a)) + 1) * (ks + vs) <= data) /\
  ((exists nd, insert ks vs (s a) i k v = Ok nd) <->
     (length (entries ks vs (s a)) + 1) * (ks + vs) <= data) /\
  (insert ks vs (s a) i k v = Stop Clobber <->
     data < (length (entries ks vs (s a)) + 1) * (ks + vs)).
Proof.
  intros ks vs data leaf m ops s xs a i k v Hp HL HR Hk Hv Hi.
  destruct (run_ok ks vs Hp data leaf ops _ _ (new_rel ks vs data leaf m) HL) as [s' [E R]].
  rewrite HR in E. injection E as -> _. specialize (R a).
  destruct (fst (srun ks vs (data / (ks + vs)) (fun _ => ([], None)) ops) a) as [l e] eqn:Ex.
  pose proof R as [R1 [R2 [R3 [R4 [R5 R6]]]]]. cbn [fst snd] in *. rewrite R5 in *.
  pose proof (cap_fits ks vs Hp data (length l + 1)) as HC.
  assert (HC' : length l < data / (ks + vs) <-> (length l + 1) * (ks + vs) <= data).
  { unfold obj in HC. rewrite (Nat.mul_comm (length l + 1)). rewrite <- HC. lia. }
  assert (HB : has_room_for_put ks vs false (s' a) = true <-> length l < data / (ks + vs)).
  { unfold has_room_for_put. cbn [orb]. rewrite (avail ks vs Hp data _ R1 R3).
    rewrite <- R5, entries_length. rewrite Nat.ltb_lt. lia. }
  split; [now rewrite HB|].
  destruct (Nat.ltb_spec (length l) (data / (ks + vs))) as [Hf|Hf].
  - destruct (insert_ok ks vs Hp data leaf _ _ _ i k v R (conj Hk Hv) Hi Hf) as [nd [E1 _]]. rewrite E1.
    split; [split; [intros _; now apply HC'|eauto]|]. split; [discriminate|]. intros H. apply HC' in Hf. lia.
  - rewrite (insert_clobber ks vs Hp data leaf _ _ _ i k v R (conj Hk Hv) Hi Hf).
    split; [split; [intros [nd Hnd]; discriminate|intros H; apply HC' in H; lia]|].
    split; [|reflexivity]. intros _. destruct (Nat.ltb_spec data ((length l + 1) * (ks + vs))) as [H|H]; [exact H|].
    apply HC' in H. lia.
Qed.
Print Assumptions c112_insert_room.

(** *** A case *)

(** Legality as a computation. *)
Definition legal_b (ks vs cap : nat) (leaf : bool) (s : sstate) (o : op) : bool :=
  match o with
  | Insert a i k v => (length k =? ks) && (length v =? vs) && (i <=? length (fst (s a))) &&
      (length (fst (s a)) <? cap)
  | Update a i k v => (length k =? ks) && (length v =? vs) && (i <? length (fst (s a)))
  | UpdateValue a i v => (length v =? vs) && (i <? length (fst (s a)))
  | SetEdge a v => negb leaf
  | Remove a x y => (x <=? S y) && (y <? length (fst (s a)))
  | RemoveToEdge a x => negb leaf && (1 <=? x) && (x <=? length (fst (s a))) &&
      match snd (s a) with Some _ => true | None => false end
  | Clear a => true
  | MoveEntries a b _ | MoveSize a b _ => negb (a =? b)
  | CopyEntries a b start _ | CopySize a b start _ => negb (a =? b) && (start <=? length (fst (s b)))
  end.
Fixpoint legal_run_b (ks vs cap : nat) (leaf : bool) (s : sstate) (ops : list op) : bool :=
  match ops with
  | [] => true
  | o :: r => legal_b ks vs cap leaf s o && legal_run_b ks vs cap leaf (fst (sstep ks vs cap s o)) r
  end.

Lemma legal_run_b_ok : forall ks vs cap leaf ops s, legal_run_b ks vs cap leaf s ops = true ->
  legal_run ks vs cap leaf s ops.
Proof.
  intros ks vs cap leaf. induction ops as [|o ops IH]; intros s H; cbn [legal_run_b legal_run] in *; [exact I|].
  apply andb_true_iff in H. destruct H as [H1 H2]. split; [|auto].
  destruct o; cbn [legal legal_b] in *; rewrite ?andb_true_iff in H1; rewrite ?negb_true_iff in H1;
    unfold shape; try lia.
  destruct H1 as [[[H1 H3] H4] H5]. split; [exact H1|]. split; [lia|]. destruct (snd (s a)); congruence.
Qed.

(** Interior nodes of 26 bytes with entries of 2 + 3 bytes: five go in.  They
    are filled, split, one takes its edge from its last entry, and what does
    not fit stays behind. *)
Definition b (n : nat) (x : N) : bytes := repeat x n.
Definition ops26 : list op :=
  [Insert 0 0 (b 2 2) (b 3 2); Insert 0 0 (b 2 1) (b 3 1); Insert 0 2 (b 2 4) (b 3 4);
   Insert 0 2 (b 2 3) (b 3 3); Insert 0 4 (b 2 5) (b 3 5); SetEdge 0 (b 3 9);
   MoveSize 0 1 14; Update 1 0 (b 2 7) (b 3 7); UpdateValue 0 1 (b 3 8); CopyEntries 2 0 0 9;
   CopySize 2 1 0 100; CopySize 2 0 1 100; RemoveToEdge 1 2; MoveEntries 2 1 5; Remove 2 0 0].

Example c112_example :
  legal_run 2 3 (26 / (2 + 3)) false (fun _ => ([], None)) ops26 /\
  exists s xs, run 2 3 (fun _ => new_node 26 false (fun _ => 0%N)) ops26 = Ok (s, xs) /\
    entries 2 3 (s 0) = [(b 2 1, b 3 1); (b 2 2, b 3 8); (b 2 3, b 3 3)] /\ f_edge (s 0) = None /\
    entries 2 3 (s 1) = [(b 2 2, b 3 8); (b 2 3, b 3 3); (b 2 7, b 3 7); (b 2 5, b 3 5); (b 2 7, b 3 7)] /\
    f_edge (s 1) = Some (b 3 9) /\ entries 2 3 (s 2) = [] /\
    xs = [0;0;0;0;0;0;10;0;0;3;2;0;0;4;0].
Proof.
  split; [apply legal_run_b_ok; vm_compute; reflexivity|].
  destruct (run 2 3 (fun _ => new_node 26 false (fun _ => 0%N)) ops26) as [[s xs]|] eqn:E;
    [|vm_compute in E; discriminate].
  exists s, xs. split; [reflexivity|].
  assert (HE : match run 2 3 (fun _ => new_node 26 false (fun _ => 0%N)) ops26 with
    | Ok (s, xs) => (entries 2 3 (s 0), f_edge (s 0), entries 2 3 (s 1), f_edge (s 1), entries 2 3 (s 2), xs)
    | Stop _ => ([], None, [], None, [], [])
    end = ([(b 2 1, b 3 1); (b 2 2, b 3 8); (b 2 3, b 3 3)], None,
      [(b 2 2, b 3 8); (b 2 3, b 3 3); (b 2 7, b 3 7); (b 2 5, b 3 5); (b 2 7, b 3 7)], Some (b 3 9), [],
      [0;0;0;0;0;0;10;0;0;3;2;0;0;4;0])) by (vm_compute; reflexivity).
  rewrite E in HE. injection HE as H1 H2 H3 H4 H5 H6. auto 10.
Qed.
