(** Concurrent point operations on a B-tree. *)
From Coq Require Import ZArith List Bool Arith Lia.
From Verif Require Import ConcBtModel ConcBtSpec ConcBtProofs.
Import ListNotations.
Local Open Scope Z_scope.

(** C120: however many threads put, get and remove at the same time, and
    whatever they split and merge meanwhile, every call takes effect at one
    moment between its start and its return, and in the order of these moments
    the answers and the final content are those of a map.  The tree stays a
    tree. *)
Theorem c120_linearizable : forall s0 l s es, tree s0 -> idle s0 -> run s0 l = Some (s, es) ->
  sequence (value s0) (effects es) (value s)
  /\ (forall i, exists p, history i p es /\ (thr_at s i = Idle -> p = Out))
  /\ tree s.
Proof.
  intros s0 l s es T Id E. destruct (run_ok _ _ _ _ (idle_inv _ T Id) E) as [(T' & _) Q].
  split; [exact Q|]. split; [|exact T']. intros i. exists (phase_of (thr_at s i)). split.
  - apply (run_history l s0 s es [] E). intros j. rewrite Id. constructor.
  - intros ->. reflexivity.
Qed.

(** C121: as long as a call is in progress some thread in a call can take a
    step: the threads never wait for each other in a circle. *)
Theorem c121_no_deadlock : forall s0 l s es i, tree s0 -> idle s0 -> run s0 l = Some (s, es) ->
  thr_at s i <> Idle -> exists j ch, thr_at s j <> Idle /\ step s j ch <> None.
Proof.
  intros s0 l s es i T Id E N. destruct (run_ok _ _ _ _ (idle_inv _ T Id) E) as [I _].
  exact (busy_can s i I N).
Qed.

(** C122: two threads never have the same node locked unless both only read,
    and a node that exists is changed only by a thread that has it locked for
    writing, or holds the lock of the whole tree while nobody is in it. *)
Theorem c122_exclusive : forall s0 l s es, tree s0 -> idle s0 -> run s0 l = Some (s, es) ->
  exclusive s
  /\ forall i ch s' e x, step s i ch = Some (s', e) -> h s' x <> h s x -> x < next s ->
       In (x, W) (holds (thr_at s i))
       \/ (exists o m, thr_at s i = RootEx o m) /\ forall j, j <> i -> holds_shared (thr_at s j) = false.
Proof.
  intros s0 l s es T Id E. destruct (run_ok _ _ _ _ (idle_inv _ T Id) E) as [I _].
  split; [apply I|]. intros i ch s' e x Es Nx Lx. exact (step_writes s i ch s' e x I Es Nx Lx).
Qed.

(** ** A run of two threads from the empty tree *)
Lemma start_tree : forall n, tree (start n).
Proof.
  intros n. split; [|reflexivity].
  assert (G : forall d x, reach (h (start n)) (root (start n)) d x -> d = O /\ x = 0).
  { induction 1 as [|d p b c _ _ L]; [auto|]. now elim L. }
  constructor; try (now intros; cbn in *); try (intros d x Rx; apply G in Rx as [-> ->]; now cbn).
Qed.
Lemma start_idle : forall n, idle (start n).
Proof.
  intros n i. unfold thr_at, start. cbn [thr]. revert i. induction n as [|n IH]; intros [|i]; cbn; auto.
Qed.

Definition k (i v : Z) : ConcBtModel.ent := (Some i, v).
(** one call on a root that is a leaf *)
Definition plain (i : nat) (o : op) : list (nat * choice) := [(i, Invoke o); (i, Go); (i, Go); (i, Go); (i, Go); (i, Go)].
Definition sched : list (nat * choice) :=
  plain 0 (Put Insert 1 10) ++ plain 1 (Put Insert 2 20) ++
  (* thread 0 splits the root, comes to the left leaf and wants to merge it *)
  [(0%nat, Invoke (Put Insert 0 5)); (0%nat, Go); (0%nat, Change); (0%nat, Grow [[k 1 10]; [k 2 20]]);
   (0%nat, Go); (0%nat, Go);
   (* thread 1 is on its way to the right leaf meanwhile *)
   (1%nat, Invoke (Remove 2)); (1%nat, Go); (1%nat, Go); (0%nat, Change); (1%nat, Go); (0%nat, Go);
   (0%nat, Siblings 1)].
Definition sched2 : list (nat * choice) :=
  [(1%nat, Go); (1%nat, Go); (0%nat, Go); (0%nat, Redo [[k 1 10]] true); (0%nat, Go); (0%nat, Go); (0%nat, Go); (0%nat, Go)].
(** thread 0 has to wait for the right leaf; thread 1 goes on, then thread 0
    merges what is left and puts its key *)
Example c120_example :
  option_map (fun r => (nth 0 (thr (fst r)) Idle, step (fst r) 0%nat Go)) (run (start 2) sched)
    = Some (Ready (Put Insert 0 5) 1 0 [] [2], None)
  /\ option_map (fun r => (snd r, h (fst r) 1, h (fst r) 0, map (value (fst r)) [0; 1; 2]))
       (run (start 2) (sched ++ sched2))
    = Some ([Inv 0 (Put Insert 1 10); Lin 0 (Put Insert 1 10) (Success None); Ret 0 (Put Insert 1 10) (Success None);
             Inv 1 (Put Insert 2 20); Lin 1 (Put Insert 2 20) (Success None); Ret 1 (Put Insert 2 20) (Success None);
             Inv 0 (Put Insert 0 5); Inv 1 (Remove 2); Lin 1 (Remove 2) (Success (Some 20)); Ret 1 (Remove 2) (Success (Some 20));
             Lin 0 (Put Insert 0 5) (Success None); Ret 0 (Put Insert 0 5) (Success None)],
            Nd 1 [(None, 0)], Nd 0 [k 0 5; k 1 10], [Some 5; Some 10; None]).
Proof. split; vm_compute; reflexivity. Qed.
Example c121_example : exists s es, run (start 2) sched = Some (s, es)
  /\ tree (start 2) /\ idle (start 2) /\ thr_at s 0 <> Idle /\ step s 0%nat Go = None /\ step s 1%nat Go <> None.
Proof.
  assert (E : option_map (fun r => (thr_at (fst r) 0, step (fst r) 0%nat Go,
       match step (fst r) 1%nat Go with Some _ => true | None => false end)) (run (start 2) sched)
       = Some (Ready (Put Insert 0 5) 1 0 [] [2], None, true)) by (vm_compute; reflexivity).
  destruct (run (start 2) sched) as [[s es]|]; [|discriminate]. cbn [option_map fst] in E.
  pose proof (f_equal (option_map (fun x => fst (fst x))) E) as E1.
  pose proof (f_equal (option_map (fun x => snd (fst x))) E) as E2.
  pose proof (f_equal (option_map snd) E) as E3. cbn [option_map fst snd] in E1, E2, E3.
  injection E1 as E1. injection E2 as E2. injection E3 as E3.
  exists s, es. split; [reflexivity|]. split; [apply start_tree|]. split; [apply start_idle|].
  split; [rewrite E1; discriminate|]. split; [exact E2|]. destruct (step s 1 Go); [discriminate|discriminate E3].
Qed.
(** the merge changes the parent and the left leaf, both locked for writing *)
Example c122_example :
  option_map (fun r => (holds (thr_at (fst r) 0),
      match step (fst r) 0%nat (Redo [[k 1 10]] true) with
      | Some (s', _) => (h s' 1, h (fst r) 1)
      | None => (Nd 0 [], Nd 0 [])
      end)) (run (start 2) (sched ++ firstn 3 sched2))
  = Some ([(1, W); (0, W); (2, W)], (Nd 1 [(None, 0)], Nd 1 [(Some 1, 0); (None, 2)])).
Proof. vm_compute. reflexivity. Qed.

Print Assumptions c120_linearizable.
Print Assumptions c121_no_deadlock.
Print Assumptions c122_exclusive.
Print Assumptions c120_example.
Print Assumptions c121_example.
Print Assumptions c122_example.
